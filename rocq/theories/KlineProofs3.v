(** * KlineProofs3: columns, typical prices, Heikin-Ashi, sorting, padding. *)
From Coq Require Import Permutation String Reals Lra.
From Verif Require Import Base Num XReal Order Klines SpecKlines KlineFloat TaTools RSum XrMore KlineProofs2.
Set Implicit Arguments.
Local Open Scope Z_scope.

Lemma tab_map A B (f : A -> B) (l : list A) d : map f l = tab (length l) (fun k => f (nth k l d)).
Proof. rewrite (tab_of_list l d) at 1. unfold tab. now rewrite map_map. Qed.

Section Any.
Context {N : Num}.

Lemma percandle_spec f (cs : list Candle) : percandle f cs = Ok (map f cs).
Proof.
  unfold percandle. rewrite make_len. cbn [bind]. unfold range_.
  rewrite (tab_map f cs (blank 0)).
  rewrite for_nat0 with (st := partial fzero (fun k => f (nth k cs (blank 0))) (length cs)).
  - now rewrite partial_full.
  - now rewrite partial_0.
  - intros i Hi. rewrite get_nat with (d := blank 0) by lia. cbn [bind].
    rewrite partial_set with (f := fun k => f (nth k cs (blank 0))); [reflexivity|lia|reflexivity].
Qed.

Lemma GetOHLC_spec (cs : list Candle) :
  GetOHLC cs = Ok (mkOHLC (map cOpen cs) (map cHigh cs) (map cLow cs) (map cClose cs)
                          (map cVolume cs) (map cBull cs) (map cTime cs)).
Proof.
  unfold GetOHLC. rewrite !make_len. cbn [bind].
  set (n := length cs).
  set (g := fun A (z : A) (f : Candle -> A) i => partial z (fun k => f (nth k cs (blank 0))) n i).
  rewrite for_nat0 with (st := fun i => mkOHLC (g F fzero cOpen i) (g F fzero cHigh i) (g F fzero cLow i)
     (g F fzero cClose i) (g F fzero cVolume i) (g bool false cBull i) (g Z 0 cTime i)).
  - fold n. unfold g. rewrite !partial_full. unfold n. now rewrite <- !tab_map.
  - unfold g. now rewrite !partial_0.
  - intros i Hi. rewrite get_nat with (d := blank 0) by lia. cbn [bind oOpen oHigh oLow oClose oVolume oBull oTime].
    unfold g, n.
    rewrite partial_set with (f := fun k => cOpen (nth k cs (blank 0))); [|lia|reflexivity]. cbn [bind].
    rewrite partial_set with (f := fun k => cHigh (nth k cs (blank 0))); [|lia|reflexivity]. cbn [bind].
    rewrite partial_set with (f := fun k => cLow (nth k cs (blank 0))); [|lia|reflexivity]. cbn [bind].
    rewrite partial_set with (f := fun k => cClose (nth k cs (blank 0))); [|lia|reflexivity]. cbn [bind].
    rewrite partial_set with (f := fun k => cVolume (nth k cs (blank 0))); [|lia|reflexivity]. cbn [bind].
    rewrite partial_set with (f := fun k => cBull (nth k cs (blank 0))); [|lia|reflexivity]. cbn [bind].
    rewrite partial_set with (f := fun k => cTime (nth k cs (blank 0))); [|lia|reflexivity]. reflexivity.
Qed.

(** ** Heikin-Ashi *)
Definition ha_open (cs : list Candle) (k : nat) : F :=
  let c := nth (if (1 <? k)%nat then k - 1 else k)%nat cs (blank 0) in (cOpen c +~ cClose c) /~ ofZ 2.
Lemma HeikinAshi_spec (e : Item) :
  ToHeikinAshi e = Ok (mkItem (iExchange e) (iInterval e) EmptyString EmptyString
    (tab (length (iCandles e)) (fun k => ha_candle (ha_open (iCandles e) k) (nth k (iCandles e) (blank 0))))).
Proof.
  unfold ToHeikinAshi. rewrite make_len. cbn [bind]. unfold range_.
  set (cs := iCandles e). set (out := fun k => ha_candle (ha_open cs k) (nth k cs (blank 0))).
  rewrite for_nat0 with (st := partial (blank 0) out (length cs)).
  - cbn [bind]. now rewrite partial_full.
  - now rewrite partial_0.
  - intros i Hi. rewrite get_nat with (d := blank 0) by lia. cbn [bind].
    assert (E : (if Z.of_nat i >? 1 then prev <- get cs (Z.of_nat i - 1) ;; Ok ((cOpen prev +~ cClose prev) /~ ofZ 2)
                 else Ok ((cOpen (nth i cs (blank 0)) +~ cClose (nth i cs (blank 0))) /~ ofZ 2)) = Ok (ha_open cs i)).
    { unfold ha_open. rewrite Z.gtb_ltb. destruct (Z.ltb_spec 1 (Z.of_nat i)) as [H|H].
      - replace (Z.of_nat i - 1) with (Z.of_nat (i - 1)) by lia. rewrite get_nat with (d := blank 0) by lia. cbn [bind].
        destruct (Nat.ltb_spec 1 i); [reflexivity|lia].
      - destruct (Nat.ltb_spec 1 i); [lia|reflexivity]. }
    rewrite E. cbn [bind]. rewrite partial_set with (f := out); [reflexivity|lia|reflexivity].
Qed.

(** ** Sorting *)
Lemma sorted_nth A (less : A -> A -> bool) l : sorted_by less l <->
  forall i j a b, (i < j)%nat -> nth_error l i = Some a -> nth_error l j = Some b -> less b a = false.
Proof.
  induction l as [|x l IH].
  - split; [intros _ [|i] j a b _ H; discriminate|constructor].
  - split.
    + intros H. inversion H as [|? ? Hx Hl]; subst. intros [|i] [|j] a b Hij Ha Hb; try lia; cbn in Ha, Hb.
      * injection Ha as <-. apply Hx. eapply nth_error_In; eauto.
      * apply (proj1 IH Hl i j); auto. lia.
    + intros H. constructor.
      * intros b Hb. apply In_nth_error in Hb as [j Hj]. apply (H 0%nat (S j) x b); [lia|reflexivity|exact Hj].
      * apply IH. intros i j a b Hij Ha Hb. apply (H (S i) (S j) a b); [lia|exact Ha|exact Hb].
Qed.

(** an insertion sort, to show that the relation is inhabited *)
Fixpoint insertion {A} (less : A -> A -> bool) (x : A) (l : list A) : list A :=
  match l with [] => [x] | y :: l' => if less y x then y :: insertion less x l' else x :: l end.
Fixpoint isort {A} (less : A -> A -> bool) (l : list A) : list A :=
  match l with [] => [] | x :: l' => insertion less x (isort less l') end.
Lemma insertion_perm A (less : A -> A -> bool) x l : Permutation (x :: l) (insertion less x l).
Proof.
  induction l as [|y l IH]; cbn; [reflexivity|]. destruct (less y x); [|reflexivity].
  rewrite perm_swap. now constructor.
Qed.
Lemma isort_perm A (less : A -> A -> bool) l : Permutation l (isort less l).
Proof. induction l as [|x l IH]; cbn; [reflexivity|]. rewrite <- insertion_perm. now constructor. Qed.
Lemma isort_sorted A (key : A -> Z) (less : A -> A -> bool) l :
  (forall a b, less a b = (key a <? key b)) -> sorted_by less (isort less l).
Proof.
  intros Hk. induction l as [|x l IH]; cbn; [constructor|].
  induction IH as [|y l' Hy Hl IH]; cbn; [repeat constructor; intros ? []|].
  destruct (less y x) eqn:E; rewrite Hk in E.
  - constructor; [|exact IH]. intros b Hb. apply (Permutation_in _ (Permutation_sym (insertion_perm less x l'))) in Hb.
    destruct Hb as [<-|Hb]; [rewrite Hk; lia|now apply Hy].
  - constructor; [|constructor; auto]. intros b [<-|Hb]; [now rewrite Hk|].
    specialize (Hy _ Hb). rewrite Hk in Hy |- *. lia.
Qed.
Lemma sort_exists desc (l : list Candle) : exists l', SortCandlesByTimestamp desc l l'.
Proof.
  destruct desc.
  - exists (isort (fun a b => cTime a <? cTime b) l). split; [apply isort_perm|].
    now apply isort_sorted with (key := cTime).
  - exists (isort (fun a b => cTime a >? cTime b) l). split; [apply isort_perm|].
    apply isort_sorted with (key := fun c => - cTime c). intros a b. rewrite Z.gtb_ltb.
    destruct (Z.ltb_spec (cTime b) (cTime a)), (Z.ltb_spec (- cTime a) (- cTime b)); lia.
Qed.

Lemma sort_order desc (l l' : list Candle) : SortCandlesByTimestamp desc l l' ->
  Permutation l l' /\ (if desc then ascending l' else descending l').
Proof.
  destruct desc; intros [Hp Hs]; (split; [exact Hp|]); intros i j a b Hij Ha Hb.
  - apply (proj1 (sorted_nth _ _) Hs i j a b Hij Ha) in Hb. apply Z.ltb_ge in Hb. exact Hb.
  - apply (proj1 (sorted_nth _ _) Hs i j a b Hij Ha) in Hb. rewrite Z.gtb_ltb in Hb. apply Z.ltb_ge in Hb. exact Hb.
Qed.
Lemma sort_wrong (l l' : list Candle) (a b : Candle) : In a l -> In b l -> cTime a < cTime b ->
  (SortCandlesByTimestamp true l l' -> ~ descending l') /\ (SortCandlesByTimestamp false l l' -> ~ ascending l').
Proof.
  intros Ha Hb Hlt. split; intros H; apply sort_order in H as [Hp Hs]; intros Hd;
    apply (Permutation_in _ Hp), In_nth_error in Ha as [i Hi];
    apply (Permutation_in _ Hp), In_nth_error in Hb as [j Hj];
    destruct (lt_eq_lt_dec i j) as [[Hij|Hij]|Hij]; try (subst; congruence || (assert (a = b) by congruence; subst; lia)).
  - pose proof (Hd _ _ _ _ Hij Hi Hj). lia.
  - pose proof (Hs _ _ _ _ Hij Hj Hi). lia.
  - pose proof (Hs _ _ _ _ Hij Hi Hj). lia.
  - pose proof (Hd _ _ _ _ Hij Hj Hi). lia.
Qed.

(** ** addPadding *)
Section Pad.
Variables (cs : list Candle) (start I : Z) (n : nat).
Let g (x : nat) : Z := slot_time start I x.
Hypothesis HI : second <= I.
Hypothesis Hinc : increasing cs.

Lemma g_lt x y : (x < y)%nat -> g x < g y.
Proof.
  intros H. unfold g, slot_time, toUnix.
  assert (0 < second) by reflexivity.
  assert ((Z.of_nat x + 1) * I <= Z.of_nat y * I) by (apply Z.mul_le_mono_nonneg_r; lia).
  assert (start + Z.of_nat x * I + 1 * second <= start + Z.of_nat y * I) by lia.
  apply Z.lt_le_trans with ((start + Z.of_nat x * I + 1 * second) / second).
  - rewrite Z.div_add by (unfold second; lia). lia.
  - apply Z.div_le_mono; [unfold second; lia|lia].
Qed.
Lemma g_le x y : (x <= y)%nat -> g x <= g y.
Proof. intros H. destruct (Nat.eq_dec x y) as [->|]; [lia|]. pose proof (@g_lt x y). lia. Qed.

Let aligned := aligned cs start I n.

Let body := fun x '(err, start, target, padded) =>
      match err with
      | Some _ => Ok (err, start, target, padded)
      | None =>
          if target >=? len cs then
            padded <- set padded x (blank (toUnix start)) ;;
            Ok (None, start + I, target, padded)
          else
            c <- get cs target ;;
            if negb (cTime c =? toUnix start) then
              if cTime c <? toUnix start then Ok (Some ErrNotAligned, start, target, padded) else
              padded <- set padded x (blank (toUnix start)) ;;
              Ok (None, start + I, target, padded)
            else
              padded <- set padded x c ;;
              Ok (None, start + I, target + 1, padded)
      end.

Lemma slot_none t : (forall c, In c cs -> cTime c <> t) -> slot cs t = blank t.
Proof.
  intros H. unfold slot. destruct (find _ cs) as [c|] eqn:E; [|reflexivity].
  apply find_some in E as [Hin Ht]. apply Z.eqb_eq in Ht. now apply H in Hin.
Qed.
Lemma slot_at i c : nth_error cs i = Some c -> slot cs (cTime c) = c.
Proof.
  intros Hc. unfold slot. destruct (find _ cs) as [c'|] eqn:E.
  - apply find_some in E as [Hin Ht]. apply Z.eqb_eq in Ht. apply In_nth_error in Hin as [j Hj].
    destruct (lt_eq_lt_dec i j) as [[H| ->]|H].
    + pose proof (Hinc H Hc Hj). lia.
    + congruence.
    + pose proof (Hinc H Hj Hc). lia.
  - eapply find_none with (x := c) in E; [|eapply nth_error_In; eauto]. rewrite Z.eqb_refl in E. discriminate.
Qed.

Lemma pad_loop : exists err st target padded,
  for_ 0 (Z.of_nat n) body (None, start, 0, repeat (blank 0) n) = Ok (err, st, target, padded) /\
  ((err = Some ErrNotAligned /\ ~ aligned) \/
   (err = None /\ padded = tab n (fun k => slot cs (g k)) /\ aligned)).
Proof.
  pose (Inv := fun (x : nat) (s : option kerr * Z * Z * list Candle) =>
    let '(err, st, target, padded) := s in
    (err = Some ErrNotAligned /\ ~ aligned) \/
    (err = None /\ st = start + Z.of_nat x * I /\ 0 <= target <= len cs /\
     padded = partial (blank 0) (fun k => slot cs (g k)) n x /\
     (forall i c, nth_error cs i = Some c -> Z.of_nat i < target -> exists k, (k < x)%nat /\ cTime c = g k) /\
     (forall i c, nth_error cs i = Some c -> target <= Z.of_nat i -> forall k, (k < x)%nat -> g k < cTime c))).
  destruct (@for_inv_nat _ Inv 0 n body (None, start, 0, repeat (blank 0) n)) as ([[[err st] target] padded] & E & HInv).
  - lia.
  - right. split; [reflexivity|]. split; [lia|]. split; [pose proof (len_nonneg cs); lia|].
    split; [now rewrite partial_0|]. split; intros; lia.
  - intros x [[[err st] target] padded] Hx HInv. cbn [body]. unfold body. destruct HInv as [[-> Hna]|(-> & -> & Ht & -> & Hlo & Hhi)].
    + eexists; split; [reflexivity|]. left; auto.
    + assert (Hgx : toUnix (start + Z.of_nat x * I) = g x) by reflexivity.
      destruct (Z.geb_spec target (len cs)) as [Hge|Hlt].
      * rewrite Hgx. rewrite partial_set with (f := fun k => slot cs (g k)); [|lia|].
        2:{ symmetry. apply slot_none. intros c Hc Heq. apply In_nth_error in Hc as [i Hi].
            assert (Hil : (i < length cs)%nat) by (apply nth_error_Some; congruence).
            destruct (Hlo i c Hi) as (k & Hk & Hkk); [unfold len in *; lia|]. pose proof (@g_lt k x). lia. }
        cbn [bind]. eexists; split; [reflexivity|]. right. split; [reflexivity|]. split; [lia|]. split; [lia|].
        split; [reflexivity|]. split.
        -- intros i c Hi Hit. destruct (Hlo i c Hi Hit) as (k & ? & ?). exists k. split; [lia|auto].
        -- intros i c Hi Hit. assert (Hil : (i < length cs)%nat) by (apply nth_error_Some; congruence). unfold len in *; lia.
      * destruct (@get_in_range _ cs target) as [c Hc]; [lia|].
        rewrite Hc. cbn [bind]. apply get_ok_iff in Hc as [_ Hc]. rewrite Hgx.
        destruct (Z.eqb_spec (cTime c) (g x)) as [Heq|Hne]; cbn [negb].
        -- rewrite partial_set with (f := fun k => slot cs (g k)); [|lia|].
           2:{ rewrite <- Heq. symmetry. eapply slot_at; eauto. }
           cbn [bind]. eexists; split; [reflexivity|]. right. split; [reflexivity|]. split; [lia|]. split; [lia|].
           split; [reflexivity|]. split.
           ++ intros i c' Hi Hit. destruct (Z.eq_dec (Z.of_nat i) target) as [Hit'|Hit'].
              ** exists x. split; [lia|]. replace (Z.to_nat target) with i in Hc by lia. congruence.
              ** destruct (Hlo i c' Hi ltac:(lia)) as (k & ? & ?). exists k. split; [lia|auto].
           ++ intros i c' Hi Hit k Hk. assert (H : (Z.to_nat target < i)%nat) by lia.
              pose proof (Hinc H Hc Hi). pose proof (@g_le k x). lia.
        -- destruct (Z.ltb_spec (cTime c) (g x)) as [Hl|Hg].
           ++ eexists; split; [reflexivity|]. left. split; [reflexivity|]. intros Hal0.
              assert (Hal : forall c k, In c cs -> (k < n)%nat -> cTime c < g k -> exists j, (j < n)%nat /\ cTime c = g j) by exact Hal0.
              destruct (Hal c x) as (k & Hk & Hkk); [eapply nth_error_In; eauto|lia|lia|].
              destruct (Nat.lt_ge_cases k x) as [Hkx|Hkx].
              ** pose proof (Hhi _ c Hc ltac:(lia) k Hkx). lia.
              ** pose proof (g_le Hkx). lia.
           ++ assert (Hgt : forall i c', nth_error cs i = Some c' -> target <= Z.of_nat i -> g x < cTime c').
              { intros i c' Hi Hit. destruct (Z.eq_dec (Z.of_nat i) target) as [Hit'|Hit'].
                - replace (Z.to_nat target) with i in Hc by lia. assert (c' = c) by congruence. subst. lia.
                - assert (H : (Z.to_nat target < i)%nat) by lia. pose proof (Hinc H Hc Hi). lia. }
              rewrite partial_set with (f := fun k => slot cs (g k)); [|lia|].
              2:{ symmetry. apply slot_none. intros c' Hc' Heq. apply In_nth_error in Hc' as [i Hi].
                  destruct (Z.lt_ge_cases (Z.of_nat i) target) as [Hit|Hit].
                  - destruct (Hlo i c' Hi Hit) as (k & Hk & Hkk). pose proof (@g_lt k x). lia.
                  - pose proof (Hgt i c' Hi Hit). lia. }
              cbn [bind]. eexists; split; [reflexivity|]. right. split; [reflexivity|]. split; [lia|]. split; [lia|].
              split; [reflexivity|]. split.
              ** intros i c' Hi Hit. destruct (Hlo i c' Hi Hit) as (k & ? & ?). exists k. split; [lia|auto].
              ** intros i c' Hi Hit k Hk. pose proof (Hgt i c' Hi Hit). pose proof (@g_le k x). lia.
  - change (Z.of_nat 0) with 0 in E. exists err, st, target, padded. split; [exact E|].
    destruct HInv as [H|(-> & -> & Ht & -> & Hlo & Hhi)]; [now left|right].
    split; [reflexivity|]. split; [apply partial_full|].
    intros c k Hc Hk Hlt. change (cTime c < g k) in Hlt. change (exists j, (j < n)%nat /\ cTime c = g j).
    apply In_nth_error in Hc as [i Hi].
    destruct (Z.lt_ge_cases (Z.of_nat i) target) as [Hit|Hit]; [eauto|].
    pose proof (Hhi i c Hi Hit k Hk). lia.
Qed.
End Pad.

Lemma removelast_firstn_len A (l : list A) : removelast l = firstn (length l - 1) l.
Proof. rewrite removelast_firstn_len. f_equal. lia. Qed.

Lemma padding_spec (e : Item) start stop purge :
  second <= iInterval e -> increasing (iCandles e) -> 0 < stop - start <= max_dur ->
  let n := Z.to_nat (Z.quot (stop - start) (iInterval e)) in
  let slots := tab n (fun k => slot (iCandles e) (slot_time start (iInterval e) k)) in
  (aligned (iCandles e) start (iInterval e) n /\ (purge = true -> (0 < n)%nat) /\
   addPadding (Some e) start stop purge =
     Ok (None, Some (with_candles e (if purge then purged slots else slots)))) \/
  (aligned (iCandles e) start (iInterval e) n /\ purge = true /\ n = 0%nat /\
   addPadding (Some e) start stop purge = Panic) \/
  (~ aligned (iCandles e) start (iInterval e) n /\
   addPadding (Some e) start stop purge = Ok (Some ErrNotAligned, Some e)).
Proof.
  intros HI Hinc Hw n slots. assert (HI0 : 0 < second) by reflexivity.
  unfold addPadding. replace (iInterval e <=? 0) with false by (symmetry; apply Z.leb_gt; lia).
  rewrite tsub_ok by (unfold min_dur; lia). replace (stop - start <=? 0) with false by (symmetry; apply Z.leb_gt; lia).
  assert (Hq : 0 <= Z.quot (stop - start) (iInterval e)) by (apply Z.quot_pos; lia).
  rewrite make_ok by exact Hq. fold n. cbn [bind]. rewrite len_repeat.
  destruct (@pad_loop (iCandles e) start (iInterval e) n HI Hinc) as (err & st & target & padded & E & H).
  rewrite E. cbn [bind]. destruct H as [[-> Hna]|(-> & -> & Hal)].
  - right; right. auto.
  - fold slots. destruct purge.
    2:{ left. split; [exact Hal|]. split; [discriminate|]. reflexivity. }
    destruct n as [|m] eqn:En; [right; left|left].
    + do 3 (split; [auto|]). unfold slots. reflexivity.
    + split; [exact Hal|]. split; [lia|].
      assert (Hl : length slots = S m) by apply tab_length.
      unfold len. rewrite Hl. replace (Z.of_nat (S m) - 1) with (Z.of_nat m) by lia.
      rewrite get_nat with (d := blank 0) by lia. cbn [bind].
      assert (Hlast : nth m slots (blank 0) = last slots (blank 0)).
      { unfold slots. rewrite tab_S, last_last, app_nth2 by (rewrite tab_length; lia).
        rewrite tab_length, Nat.sub_diag. reflexivity. }
      rewrite Hlast. unfold purged, empty_candle.
      destruct (_ && _ && _ && _ && _); [|reflexivity].
      unfold slice, len. rewrite Hl. replace (Z.of_nat m <=? Z.of_nat (S m)) with true by (symmetry; apply Z.leb_le; lia).
      replace (0 <=? Z.of_nat m) with true by (symmetry; apply Z.leb_le; lia). cbn [andb bind].
      rewrite Nat2Z.id. change (Z.to_nat 0) with 0%nat. cbn [skipn].
      rewrite removelast_firstn_len, Hl. replace (S m - 1)%nat with m by lia. reflexivity.
Qed.

Lemma padding_errors (e : Item) start stop purge :
  addPadding None start stop purge = Ok (Some ErrNilKline, None) /\
  (iInterval e <= 0 -> addPadding (Some e) start stop purge = Ok (Some ErrInvalidInterval, Some e)) /\
  (0 < iInterval e -> stop <= start -> addPadding (Some e) start stop purge = Ok (Some ErrTimeWindow, Some e)).
Proof.
  split; [reflexivity|]. unfold addPadding. split.
  - intros H. replace (iInterval e <=? 0) with true by (symmetry; apply Z.leb_le; lia). reflexivity.
  - intros H Hs. replace (iInterval e <=? 0) with false by (symmetry; apply Z.leb_gt; lia).
    replace (tsub stop start <=? 0) with true; [reflexivity|]. symmetry. apply Z.leb_le.
    unfold tsub, min_dur, max_dur. lia.
Qed.
End Any.

(** ** Exact arithmetic *)
Local Open Scope R_scope.
Lemma xr_le_true a b : a <= b -> @fle XR (Fin a) (Fin b) = true.
Proof. intros H. rewrite xr_le. now apply Rleb_true. Qed.

Lemma typical_bounds (c : @Candle XR) : well_formed c ->
  forall v, v = (cHigh c +~ cLow c) /~ ofZ 2 \/ v = (cHigh c +~ cLow c +~ cClose c) /~ ofZ 3 \/
            v = (cOpen c +~ cHigh c +~ cLow c +~ cClose c) /~ ofZ 4 ->
  (cLow c <=~ v) = true /\ (v <=~ cHigh c) = true.
Proof.
  intros (o & h & l & cl & (Ho & Hh & Hl & Hc) & B1 & B2) v Hv. rewrite Ho, Hh, Hl, Hc in *.
  destruct Hv as [->|[->| ->]]; rewrite ?xr_add, ?xr_ofZ, xr_div by lra; split; apply xr_le_true; lra.
Qed.

Lemma ha_high (open : R) (c : @Candle XR) : well_formed c ->
  let k := ha_candle (N := XR) (Fin open) c in
  cOpen k = Fin open /\ (cOpen k <=~ cHigh k) = true /\ (cClose k <=~ cHigh k) = true /\ (cLow k <=~ cHigh k) = true /\
  (cLow c <=~ cLow k) = true /\ (cLow c <=~ cClose k) = true.
Proof.
  intros (o & h & l & cl & (Ho & Hh & Hl & Hc) & B1 & B2). unfold ha_candle. rewrite Ho, Hh, Hl, Hc.
  rewrite !xr_add, !xr_ofZ, !xr_min, !xr_max. rewrite (@xr_div _ 4) by lra.
  set (ch := @fdiv XR _ _).
  destruct (@flt XR (Fin o) (Fin cl)); cbn [setBull setChange setLow setHigh setClose setOpen cOpen cClose cHigh cLow];
  (split; [reflexivity|]); repeat split; apply xr_le_true;
  pose proof (Rmax_l h (Rmax open cl)); pose proof (Rmax_r h (Rmax open cl)); pose proof (Rmax_l open cl);
  pose proof (Rmax_r open cl); pose proof (Rmin_l open cl); pose proof (Rmax_l l (Rmin open cl)); try lra;
  apply Rmax_lub; lra.
Qed.
Lemma ha_open_real (cs : list (@Candle XR)) k : Forall well_formed cs -> (k < length cs)%nat ->
  exists r, ha_open cs k = Fin r.
Proof.
  intros Hw Hk. unfold ha_open. set (j := (if (1 <? k)%nat then k - 1 else k)%nat).
  assert (Hj : (j < length cs)%nat) by (unfold j; destruct (1 <? k)%nat; lia).
  rewrite Forall_forall in Hw. destruct (Hw (nth j cs (blank 0)) (nth_In _ _ Hj)) as (o & h & l & cl & (Ho & Hh & Hl & Hc) & _).
  rewrite Ho, Hc, xr_add, xr_ofZ, xr_div by lra. eauto.
Qed.
Lemma HeikinAshi_high (e : @Item XR) : Forall well_formed (iCandles e) ->
  exists e', ToHeikinAshi e = Ok e' /\ map cTime (iCandles e') = map cTime (iCandles e) /\
    Forall (fun k => (cOpen k <=~ cHigh k) = true /\ (cClose k <=~ cHigh k) = true /\ (cLow k <=~ cHigh k) = true) (iCandles e').
Proof.
  intros Hw. rewrite HeikinAshi_spec. eexists; split; [reflexivity|]. cbn [iCandles]. split.
  - rewrite (tab_map cTime (iCandles e) (blank 0)). unfold tab at 1. rewrite map_map. apply map_ext. intros k.
    unfold ha_candle. now destruct (_ >~ _).
  - apply Forall_forall. intros k Hin. unfold tab in Hin. apply in_map_iff in Hin as (j & <- & Hj). apply in_seq in Hj.
    destruct (ha_open_real Hw (k := j)) as [r Hr]; [lia|]. rewrite Hr.
    rewrite Forall_forall in Hw. destruct (@ha_high r (nth j (iCandles e) (blank 0))) as (_ & H1 & H2 & H3 & _).
    + apply Hw, nth_In. lia.
    + auto.
Qed.
Lemma typical_between (cs : list (@Candle XR)) (vs : list (@F XR)) (k : nat) (c : Candle) (v : @F XR) :
  HL2 cs = Ok vs \/ HLC3 cs = Ok vs \/ OHLC4 cs = Ok vs ->
  nth_error cs k = Some c -> nth_error vs k = Some v -> well_formed c ->
  (cLow c <=~ v) = true /\ (v <=~ cHigh c) = true.
Proof.
  unfold HL2, HLC3, OHLC4. rewrite !percandle_spec. intros H Hc Hv Hw. apply (typical_bounds Hw).
  destruct H as [H|[H|H]]; injection H as <-; rewrite (map_nth_error _ _ _ Hc) in Hv; injection Hv as <-; auto.
Qed.
Local Close Scope R_scope.

Section PadStatements.
Context {N : Num}.
Lemma padding_aligned (e : Item) (start stop : Z) (purge : bool) :
  second <= iInterval e -> increasing (iCandles e) -> 0 < stop - start <= max_dur ->
  let n := Z.to_nat ((stop - start) / iInterval e) in
  let slots := tab n (fun k => slot (iCandles e) (slot_time start (iInterval e) k)) in
  aligned (iCandles e) start (iInterval e) n -> (purge = true -> (0 < n)%nat) ->
  addPadding (Some e) start stop purge =
    Ok (None, Some (with_candles e (if purge then purged slots else slots))).
Proof.
  intros HI Hinc Hw n slots Hal Hp. assert (0 < second) by reflexivity.
  pose proof (@padding_spec N e start stop purge HI Hinc Hw) as H1. cbv zeta in H1.
  rewrite Z.quot_div_nonneg in H1 by lia. fold n slots in H1.
  destruct H1 as [(_ & _ & E)|[(_ & E1 & E2 & _)|[E _]]]; [exact E| |contradiction].
  specialize (Hp E1). lia.
Qed.
Lemma padding_misaligned (e : Item) (start stop : Z) (purge : bool) :
  second <= iInterval e -> increasing (iCandles e) -> 0 < stop - start <= max_dur ->
  ~ aligned (iCandles e) start (iInterval e) (Z.to_nat ((stop - start) / iInterval e)) ->
  addPadding (Some e) start stop purge = Ok (Some ErrNotAligned, Some e).
Proof.
  intros HI Hinc Hw Hal. assert (0 < second) by reflexivity.
  pose proof (@padding_spec N e start stop purge HI Hinc Hw) as H1. cbv zeta in H1.
  rewrite Z.quot_div_nonneg in H1 by lia.
  destruct H1 as [(E & _)|[(E & _)|[_ E]]]; [contradiction..|exact E].
Qed.
Lemma padding_short (e : Item) (start stop : Z) :
  second <= iInterval e -> increasing (iCandles e) -> 0 < stop - start < iInterval e -> stop - start <= max_dur ->
  addPadding (Some e) start stop true = Panic.
Proof.
  intros HI Hinc Hw Hm. assert (0 < second) by reflexivity.
  pose proof (@padding_spec N e start stop true HI Hinc ltac:(lia)) as H1. cbv zeta in H1.
  rewrite Z.quot_small in H1 by lia.
  destruct H1 as [(_ & E & _)|[(_ & _ & _ & E)|[E _]]].
  - specialize (E eq_refl). cbn in E. lia.
  - exact E.
  - exfalso. apply E. intros c k _ Hk. cbn in Hk. lia.
Qed.
End PadStatements.
