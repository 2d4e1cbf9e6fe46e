(** * PropHelpers: C94, the exported helpers no other property speaks of. *)
From Coq Require Import Reals Lra ZArith Lia List Bool PeanoNat String.
From Verif Require Import Base Num XReal B64 Lits RSum Ta TaTools SpecTa TaAvg TaStat RoundDigit IndForms2 Klines SpecKlines KlineProofs1 IndTrend.
Import ListNotations.
Open Scope list_scope.
Set Implicit Arguments.
Open Scope Z_scope.

(** ** GenerateNumbers *)
Lemma floor_ge k x : (IZR k <= x)%R <-> k <= Int_part x.
Proof.
  destruct (base_Int_part x) as [H1 H2]. split; intros H.
  - assert (IZR k < IZR (Int_part x) + 1)%R by lra. rewrite <- plus_IZR in H0. apply lt_IZR in H0. lia.
  - apply IZR_le in H. lra.
Qed.
Lemma Rround_neg q : Rround q < 0 <-> (q <= - (1 / 2))%R.
Proof.
  unfold Rround. destruct (Rltb_spec q 0) as [H|H].
  - split; intros G.
    + assert (1 <= Int_part (- q + 1 / 2)) as K by lia. apply floor_ge in K. lra.
    + assert (1 <= Int_part (- q + 1 / 2)) as K by (apply floor_ge; lra). lia.
  - split; intros G; [|lra]. assert (0 <= Int_part (q + 1 / 2)) by (apply floor_ge; lra). lia.
Qed.
Lemma Rround_below q (i : nat) : Z.of_nat i < Rround q <-> (INR i + 1 / 2 <= q)%R.
Proof.
  assert (E : IZR (Z.of_nat i + 1) = (INR i + 1)%R) by (rewrite plus_IZR, <- INR_IZR_INZ; reflexivity).
  unfold Rround. destruct (Rltb_spec q 0) as [H|H].
  - pose proof (pos_INR i). assert (0 <= Int_part (- q + 1 / 2)) by (apply floor_ge; lra). split; [lia|lra].
  - split; intros G.
    + assert (Z.of_nat i + 1 <= Int_part (q + 1 / 2)) as K by lia. apply floor_ge in K. lra.
    + assert (Z.of_nat i + 1 <= Int_part (q + 1 / 2)) as K by (apply floor_ge; lra). lia.
Qed.
Lemma Rtrunc_IZR k : Rtrunc (IZR k) = k.
Proof.
  assert (P : forall z, Int_part (IZR z) = z).
  { intros z. assert (z <= Int_part (IZR z)) by (apply floor_ge; lra). destruct (base_Int_part (IZR z)) as [B _]. apply le_IZR in B. lia. }
  unfold Rtrunc. destruct (Rltb_spec (IZR k) 0); [rewrite <- opp_IZR|]; rewrite P; lia.
Qed.

(** GenerateNumbers begin end step counts begin, begin + step, ... and stops half a
    step before end: number i is present exactly when i + 1/2 steps fit between
    begin and end, so end itself is never reached.  It crashes exactly when end
    lies half a step or more on the wrong side of begin.  Exact arithmetic, any
    real arguments, step not 0. *)
Theorem C94_GenerateNumbers (b e s : R) : s <> 0%R ->
  (GenerateNumbers (N := XR) (Fin b) (Fin e) (Fin s) = Panic <-> ((e - b) / s <= - (1 / 2))%R) /\
  forall xs, GenerateNumbers (N := XR) (Fin b) (Fin e) (Fin s) = Ok xs ->
    exists n : nat, xs = fins (map (fun i => b + s * INR i)%R (seq 0 n)) /\ forall i : nat, (i < n)%nat <-> (INR i + 1 / 2 <= (e - b) / s)%R.
Proof.
  intros Hs. set (q := ((e - b) / s)%R).
  assert (E : ftrunc (Num := XR) (fround (((Fin e : @F XR) -~ (Fin b : @F XR)) /~ (Fin s : @F XR))) = Rround q).
  { assert (D : ((Fin e : @F XR) -~ (Fin b : @F XR)) /~ (Fin s : @F XR) = Fin q).
    { unfold q. cbn. unfold xdiv. destruct (Req_EM_T s 0); [contradiction|]. unfold Reqb. destruct (Req_EM_T s 0); [contradiction|]. reflexivity. }
    rewrite D. cbn. apply Rtrunc_IZR. }
  unfold GenerateNumbers. rewrite E. destruct (Z_lt_le_dec (Rround q) 0) as [Hn|Hn].
  - rewrite make_neg by exact Hn. cbn [bind]. split; [|discriminate]. split; [|reflexivity]. intros _. now apply Rround_neg.
  - set (n := Z.to_nat (Rround q)). assert (Eq : Rround q = Z.of_nat n) by (unfold n; lia).
    match goal with |- (?x = Panic <-> _) /\ _ => assert (G : x = Ok (tab n (fun i => Fin (b + s * INR i) : @F XR))) end.
    { rewrite Eq, make_tab. cbn [bind]. apply fill_T. intros i Hi. apply partial_set; [exact Hi|]. rewrite INR_IZR_INZ. reflexivity. }
    rewrite G. split; [split; [discriminate|]|].
    + intros H. apply Rround_neg in H. lia.
    + intros xs X. injection X as <-. exists n. split.
      * unfold tab, fins. now rewrite map_map.
      * intros i. rewrite <- Rround_below. lia.
Qed.
Print Assumptions C94_GenerateNumbers.

(** ** Cum and Mean *)
(** Cum is the sum and Mean the average of all the values; the average of no value is NaN, in exact arithmetic and in float64. *)
Theorem C94_Cum_Mean (xs : list R) : Cum (N := XR) (fins xs) = Fin (Rsum xs) /\
  (xs <> [] -> Mean (N := XR) (fins xs) = Fin (mean xs)) /\ Mean (N := XR) [] = NaN /\ forall L, isNaN (Mean (N := B64 L) []) = true.
Proof.
  assert (S : fold_left (@fadd XR) (fins xs) (Fin 0 : @F XR) = (Fin (Rsum xs) : @F XR)) by (etransitivity; [apply fold_fadd_fins|now rewrite Rplus_0_l]).
  split; [exact S|]. split; [|split].
  - intros H. unfold Mean. change (@fzero XR) with (Fin 0 : @F XR). rewrite S. unfold len, fins. rewrite map_length. cbn. unfold mean.
    rewrite INR_IZR_INZ. unfold xdiv. assert (IZR (Z.of_nat (length xs)) <> 0%R) by (rewrite <- INR_IZR_INZ; apply not_0_INR; destruct xs; [contradiction|discriminate]).
    unfold Reqb. destruct (Req_EM_T _ 0); [contradiction|reflexivity].
  - unfold Mean. cbn. unfold inf_sgn, Reqb, Rltb. destruct (Req_EM_T 0 0); [|contradiction]. repeat (destruct (Rlt_dec _ _); [lra|]). reflexivity.
  - intros L. vm_compute. reflexivity.
Qed.
Print Assumptions C94_Cum_Mean.

(** ** ComputeCCI *)
(** a slice filled entry by entry, each entry computed or crashing on its own *)
Lemma fill_res A (z : A) (e : nat -> res A) n (body : Z -> list A -> res (list A)) :
  (forall i c, (i < n)%nat -> length c = n -> body (Z.of_nat i) c = (v <- e i ;; set c (Z.of_nat i) v)) ->
  (forall r, for_ 0 (Z.of_nat n) body (repeat z n) = Ok r <-> length r = n /\ forall i, (i < n)%nat -> e i = rmap (fun v => v) (get r (Z.of_nat i))) /\
  (for_ 0 (Z.of_nat n) body (repeat z n) = Panic <-> exists i, (i < n)%nat /\ e i = Panic).
Proof.
  intros Hb.
  assert (D : (exists i, (i < n)%nat /\ e i = Panic /\ forall j, (j < i)%nat -> e j <> Panic) \/ forall i, (i < n)%nat -> e i <> Panic).
  { clear Hb. induction n as [|k IH]; [right; lia|]. destruct IH as [(i & Hi & E)|IH]; [left; exists i; split; [lia|exact E]|].
    destruct (e k) eqn:Ek; [right|left].
    - intros i Hi. destruct (Nat.eq_dec i k) as [->|]; [congruence|]. apply IH. lia.
    - exists k. split; [lia|]. split; [exact Ek|exact IH]. }
  destruct D as [(k & Hk & Ek & Hj)|Hall].
  - assert (P : for_ 0 (Z.of_nat n) body (repeat z n) = Panic).
    { apply (@for_panic_at _ (fun _ c => length c = n) 0 (Z.of_nat k) (Z.of_nat n)); [lia|apply repeat_length| |].
      - intros i c Hi Lc. replace i with (Z.of_nat (Z.to_nat i)) by lia. rewrite Hb by lia.
        destruct (e (Z.to_nat i)) as [v|] eqn:Ei; [|exfalso; apply (Hj (Z.to_nat i)); [lia|exact Ei]]. cbn [bind].
        rewrite set_ok by (unfold len; lia). eexists. split; [reflexivity|]. now rewrite upd_length.
      - intros c Lc. rewrite Hb by lia. now rewrite Ek. }
    rewrite P. split; [|split; [intros _; exists k; now split|reflexivity]]. intros r. split; [discriminate|].
    intros (Lr & H). specialize (H k Hk). rewrite Ek in H. rewrite (@get_nat _ r k z) in H by lia. discriminate.
  - set (f := fun i => match e i with Ok v => v | Panic => z end).
    assert (Ef : forall i, (i < n)%nat -> e i = Ok (f i)) by (intros i Hi; unfold f; specialize (Hall i Hi); destruct (e i); congruence).
    rewrite (@fill_T _ _ f).
    + split; [|split; [discriminate|intros (i & Hi & E); exfalso; exact (Hall i Hi E)]]. intros r. split.
      * intros E. injection E as <-. split; [apply tab_length|]. intros i Hi. rewrite (@get_nat _ _ i z) by (now rewrite tab_length). rewrite tab_nth by exact Hi. cbn. now apply Ef.
      * intros (Lr & H). f_equal. apply nth_ext with (d := z) (d' := z); [now rewrite tab_length|]. rewrite tab_length. intros i Hi. rewrite tab_nth by exact Hi.
        specialize (H i Hi). rewrite (Ef i Hi), (@get_nat _ r i z) in H by lia. cbn in H. congruence.
    + intros i Hi. rewrite Hb; [|exact Hi|apply partial_length; lia]. rewrite (Ef i Hi). cbn [bind]. now apply partial_set.
Qed.

(** Entry i is 0 where the deviation is 0 and (close - average) / (0.015 deviation)
    elsewhere; it crashes exactly when some entry it needs is missing; and it is
    the last step of ta.AiCoinCCI.  Any float arithmetic. *)
Theorem C94_ComputeCCI (N : Num) (cs ms ds : list F) :
  (forall r, ComputeCCI cs ms ds = Ok r <->
     length r = length cs /\ forall i c, nth_error cs i = Some c -> exists d, nth_error ds i = Some d /\
       (if d ==~ ofZ 0 then nth_error r i = Some (ofZ 0) else exists m, nth_error ms i = Some m /\ nth_error r i = Some ((c -~ m) /~ (lit 15 1000 *~ d)))) /\
  (ComputeCCI cs ms ds = Panic <-> exists i, (i < length cs)%nat /\ (length ds <= i \/ exists d, nth_error ds i = Some d /\ (d ==~ ofZ 0) = false /\ length ms <= i)%nat).
Proof.
  set (e := fun i => d <- get ds (Z.of_nat i) ;; if d ==~ ofZ 0 then Ok (ofZ 0) else c <- get cs (Z.of_nat i) ;; m <- get ms (Z.of_nat i) ;; Ok ((c -~ m) /~ (lit 15 1000 *~ d))).
  destruct (@fill_res _ fzero e (length cs) (fun i cci => m <- get ds i ;; if m ==~ ofZ 0 then set cci i (ofZ 0) else
    c <- get cs i ;; a <- get ms i ;; set cci i ((c -~ a) /~ (lit 15 1000 *~ m)))) as [H1 H2].
  { intros i c Hi Lc. unfold e. destruct (get ds (Z.of_nat i)) as [d|]; [|reflexivity]. cbn [bind]. destruct (d ==~ ofZ 0); [reflexivity|].
    destruct (get cs (Z.of_nat i)); [|reflexivity]. cbn [bind]. destruct (get ms (Z.of_nat i)); reflexivity. }
  assert (Gs : forall A (l : list A) i, match get l (Z.of_nat i) with Ok v => nth_error l i = Some v | Panic => nth_error l i = None end).
  { intros A l i. unfold get. destruct (Z.ltb_spec (Z.of_nat i) 0); [lia|]. rewrite Nat2Z.id. now destruct (nth_error l i). }
  assert (EC : ComputeCCI cs ms ds = for_ 0 (Z.of_nat (length cs)) (fun i cci => m <- get ds i ;; if m ==~ ofZ 0 then set cci i (ofZ 0) else
    c <- get cs i ;; a <- get ms i ;; set cci i ((c -~ a) /~ (lit 15 1000 *~ m))) (repeat fzero (length cs))).
  { unfold ComputeCCI. rewrite make_len. reflexivity. }
  rewrite EC. split.
  - intros r. rewrite H1. split; intros [Lr H]; (split; [exact Lr|]).
    + intros i c Hc. assert (Hi : (i < length cs)%nat) by (apply nth_error_Some; congruence). specialize (H i Hi). unfold e in H.
      pose proof (Gs _ ds i) as Gd. pose proof (Gs _ cs i) as Gc. pose proof (Gs _ ms i) as Gm. pose proof (Gs _ r i) as Gr.
      assert (exists v, get r (Z.of_nat i) = Ok v) as (v & Ev) by (destruct (get r (Z.of_nat i)) as [v|]; [eauto|exfalso; apply nth_error_None in Gr; lia]).
      rewrite Ev in *. destruct (get ds (Z.of_nat i)) as [d|]; [|discriminate]. exists d. split; [exact Gd|]. cbn [bind rmap] in H.
      destruct (d ==~ ofZ 0); [congruence|]. destruct (get cs (Z.of_nat i)) as [c'|]; [|discriminate]. cbn [bind] in H.
      destruct (get ms (Z.of_nat i)) as [m|]; [|discriminate]. cbn [bind] in H. exists m. split; [exact Gm|]. congruence.
    + intros i Hi. destruct (nth_error cs i) as [c|] eqn:Ec; [|apply nth_error_None in Ec; lia]. destruct (H i c Ec) as (d & Ed & K). unfold e.
      pose proof (Gs _ ds i) as Gd. pose proof (Gs _ cs i) as Gc. pose proof (Gs _ ms i) as Gm. pose proof (Gs _ r i) as Gr.
      destruct (get ds (Z.of_nat i)) as [d'|]; [|congruence]. replace d' with d in * by congruence. cbn [bind].
      destruct (d ==~ ofZ 0).
      * destruct (get r (Z.of_nat i)); [cbn; congruence|congruence].
      * destruct K as (m & Em & Er). destruct (get cs (Z.of_nat i)); [|congruence]. destruct (get ms (Z.of_nat i)); [|congruence]. destruct (get r (Z.of_nat i)); [|congruence]. cbn. congruence.
  - rewrite H2. split.
    + intros (i & Hi & E). exists i. split; [exact Hi|]. unfold e in E.
      pose proof (Gs _ ds i) as Gd. pose proof (Gs _ cs i) as Gc. pose proof (Gs _ ms i) as Gm.
      destruct (get ds (Z.of_nat i)) as [d|]; [|left; now apply nth_error_None]. right. exists d. split; [exact Gd|]. cbn [bind] in E.
      destruct (d ==~ ofZ 0); [discriminate|]. split; [reflexivity|]. destruct (get cs (Z.of_nat i)); [|apply nth_error_None in Gc; lia].
      cbn [bind] in E. destruct (get ms (Z.of_nat i)); [discriminate|]. now apply nth_error_None.
    + intros (i & Hi & K). exists i. split; [exact Hi|]. unfold e. pose proof (Gs _ ds i) as Gd. pose proof (Gs _ ms i) as Gm.
      destruct K as [K|(d & Ed & Nz & K)].
      * destruct (get ds (Z.of_nat i)); [|reflexivity]. apply nth_error_None in K. congruence.
      * destruct (get ds (Z.of_nat i)) as [d'|]; [|reflexivity]. replace d' with d by congruence. cbn [bind]. rewrite Nz. destruct (get cs (Z.of_nat i)); [|reflexivity]. cbn [bind].
        destruct (get ms (Z.of_nat i)); [|reflexivity]. apply nth_error_None in K. congruence.
Qed.
Print Assumptions C94_ComputeCCI.
Theorem C94_ComputeCCI_in_AiCoinCCI (N : Num) (xs : list F) (p : Z) (f : F) :
  AiCoinCCI xs p f = (ms <- MA xs p ;; ds <- Dev xs p ;; ComputeCCI xs ms ds).
Proof. unfold AiCoinCCI, ComputeCCI. destruct (MA xs p) as [ms|]; [|reflexivity]. cbn [bind]. destruct (Dev xs p) as [ds|]; reflexivity. Qed.
Print Assumptions C94_ComputeCCI_in_AiCoinCCI.

(** ** Times *)
(** TotalCandlesPerInterval is the number of whole intervals that fit between start
    and end (for windows below the 292 years a Go duration can span), 0 for an
    interval that is not positive, and the negated number when end is before start. *)
Theorem C94_TotalCandlesPerInterval (start end_ interval : Z) :
  (interval <= 0 -> TotalCandlesPerInterval start end_ interval = 0) /\
  (0 < interval -> start <= end_ <= start + max_dur ->
     let n := TotalCandlesPerInterval start end_ interval in 0 <= n /\ start + n * interval <= end_ < start + (n + 1) * interval) /\
  (0 < interval -> end_ <= start <= end_ + max_dur -> TotalCandlesPerInterval start end_ interval = - TotalCandlesPerInterval end_ start interval) /\
  (0 < interval -> start + max_dur <= end_ -> TotalCandlesPerInterval start end_ interval = max_dur / interval).
Proof.
  unfold TotalCandlesPerInterval, tsub, min_dur. set (M := max_dur). assert (HM : M = 9223372036854775807) by reflexivity. clearbody M. cbv zeta.
  split; [|split; [|split]].
  - intros H. destruct (Z.leb_spec interval 0); [reflexivity|lia].
  - intros H G. destruct (Z.leb_spec interval 0); [lia|]. rewrite Z.min_r, Z.max_r by lia. rewrite Z.quot_div_nonneg by lia.
    pose proof (Z.div_mod (end_ - start) interval ltac:(lia)). pose proof (Z.mod_pos_bound (end_ - start) interval ltac:(lia)).
    assert (0 <= (end_ - start) / interval) by (apply Z.div_pos; lia). nia.
  - intros H G. destruct (Z.leb_spec interval 0); [lia|]. rewrite !Z.min_r, !Z.max_r by lia. replace (end_ - start) with (- (start - end_)) by lia. now rewrite Z.quot_opp_l by lia.
  - intros H G. destruct (Z.leb_spec interval 0); [lia|]. rewrite Z.min_l, Z.max_r by lia. apply Z.quot_div_nonneg; lia.
Qed.
Print Assumptions C94_TotalCandlesPerInterval.

(** A stored instant equals another exactly when both fall in the same second. *)
Theorem C94_IntervalTime_Equal (t u : Z) : IntervalTime_Equal (CreateIntervalTime t) u = true <-> t / second = u / second.
Proof. unfold IntervalTime_Equal, CreateIntervalTime, toUnix. cbn. rewrite Z.eqb_eq. split; congruence. Qed.
Print Assumptions C94_IntervalTime_Equal.

(** StartEndTimeCheck accepts exactly the windows with both ends set (neither the
    zero time nor the Unix epoch), start before end and start not in the future; and what it reports otherwise. *)
Definition unset (t : Z) : Prop := t = zero_time \/ t = unix 0.
Theorem C94_StartEndTimeCheck (now start end_ : Z) :
  (StartEndTimeCheck now start end_ = None <-> ~ unset start /\ ~ unset end_ /\ start < end_ /\ start <= now) /\
  (StartEndTimeCheck now start end_ = Some ErrDateUnset <-> unset start \/ unset end_) /\
  (StartEndTimeCheck now start end_ = Some ErrStartAfterEnd <-> ~ unset start /\ ~ unset end_ /\ end_ < start) /\
  (StartEndTimeCheck now start end_ = Some ErrStartEqualsEnd <-> ~ unset start /\ ~ unset end_ /\ start = end_) /\
  (StartEndTimeCheck now start end_ = Some ErrStartAfterNow <-> ~ unset start /\ ~ unset end_ /\ start < end_ /\ now < start).
Proof.
  unfold StartEndTimeCheck, unset. set (z := zero_time). set (u := unix 0). clearbody z u. rewrite !Z.gtb_ltb.
  destruct (Z.eqb_spec start z), (Z.eqb_spec start u); cbn [orb]; try (repeat split; intros; try discriminate; try tauto; fail);
  destruct (Z.eqb_spec end_ z), (Z.eqb_spec end_ u); cbn [orb]; try (repeat split; intros; try discriminate; try tauto; fail);
  destruct (Z.ltb_spec end_ start); try (repeat split; intros; try discriminate; try tauto; try lia; fail);
  destruct (Z.eqb_spec start end_); try (repeat split; intros; try discriminate; try tauto; try lia; fail);
  destruct (Z.ltb_spec now start); repeat split; intros; try discriminate; try tauto; try lia.
Qed.
Print Assumptions C94_StartEndTimeCheck.

(** ** Clear *)
(** Clear leaves an item without candles and sets every slot it had to nil; an item
    that shares the array sees those nils.  The candles themselves, and all other
    arrays, are untouched. *)
Theorem C94_Clear (N : Num) (m : Mem) (e : MItem) (l : list (nat * Candle)) : shows m e l ->
  exists m', Clear m e = Ok (m', with_len e 0) /\ shows m' (with_len e 0) [] /\ only_array (mArr e) m m' /\
    arr_of m' (mArr e) = repeat None (length l) ++ skipn (length l) (arr_of m (mArr e)).
Proof.
  intros Hs. unfold Clear. assert (Hn : mLen e = len l) by apply Hs. rewrite Hn. pose proof (show_length Hs) as Hlen.
  edestruct (@for_inv_nat0 _ (fun i mm => only_array (mArr e) m mm /\ arr_of mm (mArr e) = repeat None i ++ skipn i (arr_of m (mArr e))) _ l
     (fun i mm => mset mm e i None) m) as (m' & E & H & A).
  - repeat split; auto.
  - intros i mm Hi [(H1 & H2 & H3) H4]. unfold mset. rewrite Hn.
    replace (Z.of_nat i <? len l) with true by (symmetry; apply Z.ltb_lt; unfold len; lia).
    assert (La : length (arr_of mm (mArr e)) = length (arr_of m (mArr e))) by (rewrite H4, app_length, repeat_length, skipn_length; lia).
    rewrite set_ok by (unfold len; lia). cbn [bind].
    assert (Ha : (mArr e < length (arrs mm))%nat) by (rewrite H2; apply Hs).
    eexists; split; [reflexivity|]. split; [split; [|split]|].
    + exact H1.
    + cbn. now rewrite upd_length.
    + intros b Hb. rewrite arr_set_other by auto. now apply H3.
    + rewrite arr_set_same by auto. rewrite H4, Nat2Z.id.
      destruct (skipn i (arr_of m (mArr e))) as [|x t] eqn:Es; [apply (f_equal (@length _)) in Es; rewrite skipn_length in Es; cbn in Es; lia|].
      replace i with (length (repeat (@None nat) i)) at 2 by apply repeat_length. rewrite upd_app_r by lia. rewrite Nat.sub_diag.
      replace (S i) with (i + 1)%nat by lia. rewrite repeat_app, <- app_assoc. f_equal. cbn. f_equal.
      replace (i + 1)%nat with (1 + i)%nat by lia. rewrite (Nat.add_comm 1 i), <- skipn_skipn_add, Es. reflexivity.
  - rewrite E. cbn [bind]. exists m'. split; [reflexivity|]. split; [|split; [exact H|exact A]].
    split; [|repeat split; auto; constructor]. cbn. destruct H as (_ & -> & _). apply Hs.
Qed.
Print Assumptions C94_Clear.

(** Beside the theorems: counting from 0 to 2.6 by 1 gives 0, 1, 2 and to 2.4 only 0, 1; counting down to -2 by 1 crashes;
    three closes of which the second has no deviation need only two averages when the last deviation is 0 too; 150 minutes hold two
    whole hours; the window from second 1 to second 5 is accepted at second 3; an item that shows two candles can be cleared. *)
Example C94_hyp :
  GenerateNumbers (fz 0) (lit 26 10) (fz 1) = Ok [fz 0; fz 1; fz 2] /\ GenerateNumbers (fz 0) (lit 24 10) (fz 1) = Ok [fz 0; fz 1] /\
  GenerateNumbers (fz 0) (fz (-2)) (fz 1) = Panic /\
  rmap (map (fun x => x ==~ fz 0)) (ComputeCCI [fz 5; fz 5; fz 9] [fz 4; fz 7] [fz 1; fz 0; fz 0]) = Ok [false; true; true] /\
  ComputeCCI [fz 5; fz 5; fz 9] [fz 4; fz 7] [fz 1; fz 0; fz 2] = Panic /\
  TotalCandlesPerInterval (unix 0) (unix 9000) (3600 * second) = 2 /\
  StartEndTimeCheck (unix 3) (unix 1) (unix 5) = None /\
  shows (N := EX) (mkMem [blank 60; blank 120] [[]; [Some 1; Some 0; None]%nat]) (mkMItem EmptyString 60 EmptyString EmptyString 1 2) [(1%nat, blank 120); (0%nat, blank 60)].
Proof.
  do 7 (split; [vm_compute; reflexivity|]). split; [cbn; lia|]. split; [reflexivity|]. split; [reflexivity|]. repeat constructor.
Qed.
