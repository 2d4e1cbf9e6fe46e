(** * SmcBar: the loop invariant of SmartMoneyConcepts.Calculation. *)
From Verif Require Import Base Num Containers Ta Klines IndBase Order TaTools TaElem TaRange SpecTa TaOrd Smc SpecSmc SmcProofs.
Set Implicit Arguments.
Open Scope Z_scope.

Section Bar.
Context {N : Num} (O : OrdLaws N).
Local Notation fl := (list F).
Variables (p : SmcP) (oh : OHLC) (atr : fl) (n sw : nat).
Hypothesis Sh : shaped oh n.
Hypothesis La : length atr = n.
Hypothesis Hsw : SwingLenght p = Z.of_nat sw.
Hypothesis Hbc : EqEnable p = true -> 0 <= BarsConfirmation p.
Let bc := Z.to_nat (BarsConfirmation p).
Local Notation hs := (oHigh oh).
Local Notation ls := (oLow oh).
Local Notation cs := (oClose oh).

Definition closes_ok : Prop := Forall (fun c => (c <~ fzero) = false) cs.

(** what a field may hold *)
Definition lev (f : field) (j : nat) (y : F) : Prop :=
  y = fzero \/
  match f with
  | fHighBOSShort | fHighCHoCHShort => closes_ok -> broken_high hs cs 5 j y
  | fHighBOSLong | fHighCHoCHLong => closes_ok -> broken_high hs cs sw j y
  | fLowBOSShort | fLowChoCHShort => closes_ok -> broken_low ls cs 5 j y
  | fLowBOSLong | fLowChoCHLong => closes_ok -> broken_low ls cs sw j y
  | fEQH => no_nan hs -> equal_highs hs atr bc (Threshold p) j y
  | fEQL => no_nan ls -> equal_lows ls atr bc (Threshold p) j y
  end.
Definition levs (j : nat) (v : SmcVal) : Prop := forall f, lev f j (field_of f v).
Lemma field_put f g y v : field_of g (put f y v) = y /\ g = f \/ field_of g (put f y v) = field_of g v.
Proof. destruct v, f, g; cbn; auto. Qed.
Lemma levs_put j f y v : lev f j y -> levs j v -> levs j (put f y v).
Proof. intros Hy H g. destruct (field_put f g y v) as [[E ->]|E]; rewrite E; auto. Qed.

Definition rows_ok (i : nat) (data : list (row SmcVal)) : Prop :=
  length data = n /\ forall j r, nth_error data j = Some r ->
    levs j (rVal r) /\
    rTime r = if ((1 <=? j) && (sw <=? j) && (j <? i))%nat then unix (nth j (oTime oh) 0) else zero_time.

Lemma draw_rows i f y from to data : rows_ok i data -> 0 <= from -> to < Z.of_nat n ->
  (forall j, from <= Z.of_nat j <= to -> lev f j y) ->
  exists data', draw f y from to data = Ok data' /\ rows_ok i data'.
Proof.
  intros [Hl Hr] H0 H1 Hy. destruct (@draw_ok N f y from to data H0) as (d & E & Ld & Hd); [unfold len; lia|].
  exists d. split; [exact E|]. split; [lia|]. intros j r Hj.
  destruct (nth_error data j) as [r0|] eqn:E0.
  2:{ apply nth_error_None in E0. assert (j < length d)%nat by (apply nth_error_Some; congruence). lia. }
  rewrite (Hd _ _ E0) in Hj. injection Hj as <-. destruct (Hr _ _ E0) as [H2 H3].
  destruct (Z.leb_spec from (Z.of_nat j)), (Z.leb_spec (Z.of_nat j) to); cbn [andb]; try (split; assumption).
  cbn [rVal rTime]. split; [|exact H3]. apply levs_put; auto.
Qed.

Definition blocks_ok (i : nat) (l : list Block) : Prop := uniq l /\ Forall (fun b => exists k, (k < i)%nat /\ block_of oh k b) l.
Lemma blocks_mono i j l : (i <= j)%nat -> blocks_ok i l -> blocks_ok j l.
Proof.
  intros H [H1 H2]. split; [exact H1|]. eapply Forall_impl; [|exact H2]. intros b (k & Hk & Hb). exists k. split; [lia|exact Hb].
Qed.

Lemma obCoord_ok useMax (i : nat) loc idxPrev lst : (1 <= i < n)%nat -> 0 <= loc -> 0 <= idxPrev <= Z.of_nat i ->
  blocks_ok (S i) lst ->
  exists idx' lst', obCoord oh useMax (Z.of_nat i) loc (firstn (S i) hs) (firstn (S i) ls) (firstn (S i) atr) idxPrev lst = Ok (idx', lst') /\
    0 <= idx' <= Z.of_nat i /\ blocks_ok (S i) lst'.
Proof.
  intros Hi H0 Hp [U Hb]. destruct Sh as (S1 & S2 & S3 & S4 & S5). unfold obCoord.
  destruct (@ob_scan_ok N useMax i loc (firstn (S i) hs) (firstn (S i) ls) (firstn (S i) atr) idxPrev) as (idx & idx' & E & H1 & H2);
    try (rewrite ?firstn_length; lia).
  rewrite E. cbn [bind]. unfold time_in.
  rewrite (@get_nth _ (oTime oh) idx 0) by (unfold len; lia). cbn [bind].
  rewrite (@get_nth _ (oOpen oh) idx fzero) by (unfold len; lia). cbn [bind].
  rewrite (@get_nth _ (oClose oh) idx fzero) by (unfold len; lia). cbn [bind].
  rewrite !get_firstn by lia.
  rewrite (@get_nth _ hs idx fzero) by (unfold len; lia). cbn [bind].
  rewrite (@get_nth _ ls idx fzero) by (unfold len; lia). cbn [bind].
  do 2 eexists. split; [reflexivity|]. split; [exact H2|]. split; [now apply uniq_add|].
  unfold bkAdd. destruct (negb _); [|exact Hb]. constructor; [|exact Hb].
  exists (Z.to_nat idx). split; [lia|]. repeat split; reflexivity.
Qed.

(** pivots *)
Definition pv_ok (high : bool) (d i : nat) (v : Pivot) : Prop :=
  0 <= pvX v < Z.of_nat i /\
  (pvY v = fzero \/ exists k, pvX v = Z.of_nat k /\ (k + d < i)%nat /\
     if high then pvY v = nth k hs fzero /\ swing_high hs d k else pvY v = nth k ls fzero /\ swing_low ls d k).
Lemma pv_mono b d i j v : (i <= j)%nat -> pv_ok b d i v -> pv_ok b d j v.
Proof.
  intros H [H1 H2]. split; [lia|]. destruct H2 as [H2|(k & E & Hk & H2)]; [now left|]. right. exists k. repeat split; auto; lia.
Qed.
Lemma arm_ok b d i y v : (1 <= i)%nat -> pv_ok b d i v ->
  (feq y fzero = false -> exists k, i = (k + d)%nat /\
     if b then y = nth k hs fzero /\ swing_high hs d k else y = nth k ls fzero /\ swing_low ls d k) ->
  pv_ok b d (S i) (arm y (Z.of_nat i - Z.of_nat d) v).
Proof.
  intros Hi Hv Hy. unfold arm. destruct (feq y fzero) eqn:E; cbn [negb]; [apply pv_mono with i; [lia|exact Hv]|].
  destruct (Hy eq_refl) as (k & -> & Hk). split; cbn [pvX pvY]; [lia|]. right. exists k. split; [lia|]. split; [lia|exact Hk].
Qed.
Lemma pv_disarm b d i v c : pv_ok b d i v -> pv_ok b d i (mkPivot (pvY v) (pvX v) c).
Proof. exact (fun H => H). Qed.

(** one BOS/CHoCH block *)
Lemma brk_ok (fires choch useMax : bool) f1 f2 (i : nat) (v : Pivot) data idx lst b d :
  (1 <= i < n)%nat -> pv_ok b d (S i) v -> rows_ok i data -> 0 <= idx <= Z.of_nat i -> blocks_ok (S i) lst ->
  (fires = true -> forall j, pvX v <= Z.of_nat j <= Z.of_nat i -> lev f1 j (pvY v) /\ lev f2 j (pvY v)) ->
  exists v' data' idx' lst',
    brk oh fires choch useMax f1 f2 (Z.of_nat i) (firstn (S i) hs) (firstn (S i) ls) (firstn (S i) atr) v (data, idx, lst)
      = Ok (v', (data', idx', lst')) /\
    pv_ok b d (S i) v' /\ rows_ok i data' /\ 0 <= idx' <= Z.of_nat i /\ blocks_ok (S i) lst'.
Proof.
  intros Hi Hv Hd Hx Hb Hf. unfold brk. destruct fires; [|do 4 eexists; split; [reflexivity|]; auto].
  destruct Hv as [Hv1 Hv2].
  destruct (@draw_rows i (if choch then f2 else f1) (pvY v) (pvX v) (Z.of_nat i) data Hd) as (d' & E & Hd'); try lia.
  { intros j Hj. destruct (Hf eq_refl j Hj). destruct choch; assumption. }
  rewrite E. cbn [bind].
  destruct (@obCoord_ok useMax i (pvX v) idx lst Hi ltac:(lia) Hx Hb) as (idx' & lst' & E' & H1 & H2).
  rewrite E'. cbn [bind]. do 4 eexists. split; [reflexivity|]. split; [exact (conj Hv1 Hv2)|]. split; [exact Hd'|]. split; [exact H1|exact H2].
Qed.

(** the conditions under which a level is drawn *)
Lemma cross_high d (i : nat) v j : (1 <= i < n)%nat -> pv_ok true d (S i) v ->
  CrossOver (firstn (S i) cs) (pvY v) = Ok true -> pvX v <= Z.of_nat j <= Z.of_nat i ->
  pvY v = fzero \/ (closes_ok -> broken_high hs cs d j (pvY v)).
Proof.
  intros Hi [Hv1 [Hv|(k & E & Hk & Hy & Hs)]] Hc Hj; [now left|]. right. intros _.
  destruct Sh as (S1 & S2 & S3 & S4 & S5).
  assert (L : length (firstn (S i) cs) = S i) by (rewrite firstn_length; lia).
  rewrite CrossOver_spec in Hc by lia. rewrite L in Hc. replace (S i - 1)%nat with i in Hc by lia.
  replace (S i - 2)%nat with (i - 1)%nat in Hc by lia. rewrite !nth_firstn_lt in Hc by lia. injection Hc as Hc.
  apply andb_true_iff in Hc as [Hc1 Hc2].
  exists k, i. repeat split; auto; try lia; apply Hs.
Qed.
Lemma cross_low d (i : nat) v j : (1 <= i < n)%nat -> pv_ok false d (S i) v ->
  CrossUnder (firstn (S i) cs) (pvY v) = Ok true -> pvX v <= Z.of_nat j <= Z.of_nat i ->
  pvY v = fzero \/ (closes_ok -> broken_low ls cs d j (pvY v)).
Proof.
  intros Hi [Hv1 [Hv|(k & E & Hk & Hy & Hs)]] Hc Hj; [now left|]. right. intros _.
  destruct Sh as (S1 & S2 & S3 & S4 & S5).
  assert (L : length (firstn (S i) cs) = S i) by (rewrite firstn_length; lia).
  rewrite CrossUnder_spec in Hc by lia. rewrite L in Hc. replace (S i - 1)%nat with i in Hc by lia.
  replace (S i - 2)%nat with (i - 1)%nat in Hc by lia. rewrite !nth_firstn_lt in Hc by lia. injection Hc as Hc.
  apply andb_true_iff in Hc as [Hc1 Hc2].
  exists k, i. repeat split; auto; try lia; apply Hs.
Qed.
Lemma crosses (i : nat) y : (1 <= i < n)%nat ->
  (exists b, CrossOver (firstn (S i) cs) y = Ok b) /\ (exists b, CrossUnder (firstn (S i) cs) y = Ok b).
Proof.
  intros Hi. destruct Sh as (S1 & S2 & S3 & S4 & S5). assert (L : length (firstn (S i) cs) = S i) by (rewrite firstn_length; lia).
  split; eexists; [apply CrossOver_spec|apply CrossUnder_spec]; lia.
Qed.

(** cleaning *)
Definition clean_ok (i : nat) (l : list Block) : Prop :=
  (length l <= Z.to_nat (OrderBlockNumber p + 1))%nat /\ Forall (fun b => ~ broken_by (nth i cs fzero) b) l.
Lemma doomed_iff c b : ob_doomed c b = true <-> broken_by c b.
Proof.
  unfold ob_doomed, broken_by. rewrite orb_true_iff, !andb_true_iff, negb_true_iff. tauto.
Qed.
Lemma ob_clean_ok (i : nat) l : blocks_ok (S i) l ->
  exists l', ob_clean (nth i cs fzero) (OrderBlockNumber p) l = Ok l' /\ blocks_ok (S i) l' /\ clean_ok i l'.
Proof.
  intros [U H]. rewrite ob_clean_spec by exact U. eexists; split; [reflexivity|]. split; split.
  - now apply uniq_clean.
  - rewrite Forall_forall in *. intros b Hb. apply filter_In in Hb as [Hb _]. apply H.
    rewrite <- (firstn_skipn (Z.to_nat (OrderBlockNumber p + 1)) l). apply in_or_app. now left.
  - assert (L : forall (f : Block -> bool) m, (length (filter f m) <= length m)%nat).
    { intros f m; induction m as [|x m IH]; cbn [filter length]; [lia|]. destruct (f x); cbn [length]; lia. }
    eapply Nat.le_trans; [apply L|]. rewrite firstn_length. lia.
  - rewrite Forall_forall. intros b Hb. apply filter_In in Hb as [_ Hb]. rewrite <- doomed_iff. destruct (ob_doomed _ b); [discriminate|intros E; discriminate].
Qed.

(** EQH/EQL *)
Lemma tInserts_some (t : tree F) (w : fl) : (t <> Leaf \/ w <> []) -> exists t', tInserts cmpF t w = Ok t' /\ t' <> Leaf.
Proof.
  assert (I : forall (t : tree F) v, exists t', tInsert cmpF t v = Ok t' /\ t' <> Leaf).
  { induction t0 as [|l IHl x r IHr]; intros v; cbn [tInsert]; [eexists; split; [reflexivity|discriminate]|].
    unfold cmpF. cbn [bind]. fold cmpF. destruct (_ <=? 0).
    - destruct (IHl v) as (t' & E & _). rewrite E. cbn [bind]. eexists; split; [reflexivity|discriminate].
    - destruct (IHr v) as (t' & E & _). rewrite E. cbn [bind]. eexists; split; [reflexivity|discriminate]. }
  revert t; induction w as [|v w IH]; intros t H; cbn [tInserts].
  - exists t. split; [reflexivity|]. tauto.
  - destruct (I t v) as (t' & E & Ht). rewrite E. cbn [bind]. apply IH. now left.
Qed.
Lemma pick_some (t : tree F) : t <> Leaf -> (exists m, tMax t = Some m) /\ (exists m, tMin t = Some m).
Proof.
  induction t as [|l IHl x r IHr]; intros H; [congruence|]. cbn [tMax tMin]. split.
  - destruct r; [eexists; reflexivity|]. apply IHr; discriminate.
  - destruct l; [eexists; reflexivity|]. apply IHl; discriminate.
Qed.
Lemma pivots_ok pick (xs : fl) (b : nat) : (forall t, t <> Leaf -> exists m, pick t = Some m) ->
  exists pv, pivots pick xs (Z.of_nat b) (Z.of_nat b) = Ok pv /\ length pv = length xs /\
   forall i, (i < b + b)%nat -> nth i pv fzero = fzero.
Proof.
  intros Hp. unfold pivots. rewrite make_len. cbn [bind].
  destruct (Z.le_gt_cases (Z.of_nat b + Z.of_nat b) (len xs)) as [Hle|Hgt].
  2:{ rewrite for_empty by lia. eexists; split; [reflexivity|]. split; [apply repeat_length|]. intros; apply nth_repeat. }
  match goal with |- context [for_ ?lo ?hi ?body ?s] =>
    destruct (@for_inv _ (fun _ (pv : fl) => length pv = length xs /\ forall i, (i < b + b)%nat -> nth i pv fzero = fzero) lo hi body s) as (pv & E & HI) end.
  - exact Hle.
  - split; [apply repeat_length|]. intros; apply nth_repeat.
  - intros i pv Hi [HI HZ]. unfold slice. unfold len in *.
    destruct (Z.leb_spec 0 (i - Z.of_nat b - Z.of_nat b)); [|lia].
    destruct (Z.leb_spec (i - Z.of_nat b - Z.of_nat b) (i + 1)); [|lia].
    destruct (Z.leb_spec (i + 1) (Z.of_nat (length xs))); [|lia]. cbn [andb bind].
    match goal with |- context [tInserts cmpF Leaf ?w] => destruct (@tInserts_some Leaf w) as (t & Et & Ht) end.
    { right. intros E. apply (f_equal (@length F)) in E. rewrite skipn_length, firstn_length in E. cbn [length] in E. lia. }
    rewrite Et. cbn [bind]. destruct (Hp t Ht) as (mm & Em). rewrite Em. cbn [assertF bind].
    rewrite (@get_nth _ xs (i - Z.of_nat b) fzero) by (unfold len; lia). cbn [bind].
    destruct (_ ==~ _); [|eexists; split; [reflexivity|split; assumption]].
    rewrite set_ok by (unfold len; lia). eexists; split; [reflexivity|]. split; [now rewrite upd_length|].
    intros k Hk. rewrite nth_upd_ne by lia. auto.
  - exists pv. auto.
Qed.

Definition eq_ok (high : bool) (i : nat) (y : F) (x : Z) : Prop :=
  0 <= x < Z.of_nat i /\
  if high then no_nan hs -> y = fzero \/ exists k, x = Z.of_nat k /\ (k + bc < i)%nat /\ pivot_high hs bc k /\ (y ==~ nth k hs fzero) = true
  else no_nan ls -> y = fzero \/ exists k, x = Z.of_nat k /\ (k + bc < i)%nat /\ pivot_low ls bc k /\ (y ==~ nth k ls fzero) = true.
Lemma no_nan_firstn k (l : fl) : no_nan l -> no_nan (firstn k l).
Proof.
  unfold no_nan. rewrite !Forall_forall. intros H x Hx. apply H. rewrite <- (firstn_skipn k l). apply in_or_app. now left.
Qed.
Lemma window_firstn (l : fl) (i w : nat) : window (firstn (S i) l) i w = window l i w.
Proof. unfold window. now rewrite firstn_firstn, Nat.min_id. Qed.
Lemma last_pivot (high : bool) (i : nat) : (i < n)%nat -> 0 <= BarsConfirmation p ->
  exists (pv : fl) (y : F), (if high then PivotHigh (firstn (S i) hs) (BarsConfirmation p) (BarsConfirmation p) else PivotLow (firstn (S i) ls) (BarsConfirmation p) (BarsConfirmation p)) = Ok pv /\
   get pv (len pv - 1) = Ok y /\
   ((y ==~ fzero) = false -> (bc + bc <= i)%nat) /\
   (if high then no_nan hs -> (y ==~ fzero) = false -> pivot_high hs bc (i - bc) /\ (y ==~ nth (i - bc) hs fzero) = true
    else no_nan ls -> (y ==~ fzero) = false -> pivot_low ls bc (i - bc) /\ (y ==~ nth (i - bc) ls fzero) = true).
Proof.
  intros Hi Hb. destruct Sh as (S1 & S2 & S3 & S4 & S5). assert (Eb : BarsConfirmation p = Z.of_nat bc) by (unfold bc; lia). rewrite Eb.
  destruct high.
  - set (xs := firstn (S i) hs). assert (L : length xs = S i) by (unfold xs; rewrite firstn_length; lia).
    destruct (@pivots_ok (@tMax F) xs bc) as (pv & E & Lp & HZ); [intros t Ht; now apply pick_some|].
    exists pv, (nth i pv fzero). split; [exact E|]. unfold len. rewrite Lp, L. replace (Z.of_nat (S i) - 1) with (Z.of_nat i) by lia.
    split; [apply get_nat; lia|]. assert (HB : (nth i pv fzero ==~ fzero) = false -> (bc + bc <= i)%nat).
    { intros Hy. destruct (Nat.le_gt_cases (bc + bc) i) as [|Hlt]; [assumption|]. rewrite (HZ i Hlt), (feq_zero O) in Hy. discriminate. }
    split; [exact HB|]. intros Hn Hy. specialize (HB Hy).
    destruct (@PivotHigh_spec N O bc bc xs) as (pv' & E' & L' & H'); [apply no_nan_firstn; exact Hn|].
    unfold PivotHigh in E'. rewrite E in E'. injection E' as <-. destruct (H' i ltac:(lia)) as [_ H2]. destruct (H2 HB) as [H3 H4].
    replace (window xs i (S (bc + bc))) with (window hs i (S (bc + bc))) in * by (symmetry; apply window_firstn).
    replace (nth (i - bc) xs fzero) with (nth (i - bc) hs fzero) in * by (symmetry; apply nth_firstn_lt; lia).
    assert (M : max_of (nth (i - bc) hs fzero) (window hs i (S (bc + bc)))).
    { destruct (nth i pv fzero ==~ nth (i - bc) hs fzero) eqn:Em.
      - destruct (Classical_Prop.classic (max_of (nth (i - bc) hs fzero) (window hs i (S (bc + bc))))) as [Hm|Hm]; [exact Hm|].
        rewrite (H4 Hm), (feq_zero O) in Hy. discriminate.
      - destruct (Classical_Prop.classic (max_of (nth (i - bc) hs fzero) (window hs i (S (bc + bc))))) as [Hm|Hm]; [exact Hm|].
        rewrite (H4 Hm), (feq_zero O) in Hy. discriminate. }
    split; [|now apply H3]. split; [lia|]. replace (i - bc + bc)%nat with i by lia. split; [lia|exact M].
  - set (xs := firstn (S i) ls). assert (L : length xs = S i) by (unfold xs; rewrite firstn_length; lia).
    destruct (@pivots_ok (@tMin F) xs bc) as (pv & E & Lp & HZ); [intros t Ht; now apply pick_some|].
    exists pv, (nth i pv fzero). split; [exact E|]. unfold len. rewrite Lp, L. replace (Z.of_nat (S i) - 1) with (Z.of_nat i) by lia.
    split; [apply get_nat; lia|]. assert (HB : (nth i pv fzero ==~ fzero) = false -> (bc + bc <= i)%nat).
    { intros Hy. destruct (Nat.le_gt_cases (bc + bc) i) as [|Hlt]; [assumption|]. rewrite (HZ i Hlt), (feq_zero O) in Hy. discriminate. }
    split; [exact HB|]. intros Hn Hy. specialize (HB Hy).
    destruct (@PivotLow_spec N O bc bc xs) as (pv' & E' & L' & H'); [apply no_nan_firstn; exact Hn|].
    unfold PivotLow in E'. rewrite E in E'. injection E' as <-. destruct (H' i ltac:(lia)) as [_ H2]. destruct (H2 HB) as [H3 H4].
    replace (window xs i (S (bc + bc))) with (window ls i (S (bc + bc))) in * by (symmetry; apply window_firstn).
    replace (nth (i - bc) xs fzero) with (nth (i - bc) ls fzero) in * by (symmetry; apply nth_firstn_lt; lia).
    assert (M : min_of (nth (i - bc) ls fzero) (window ls i (S (bc + bc)))).
    { destruct (Classical_Prop.classic (min_of (nth (i - bc) ls fzero) (window ls i (S (bc + bc))))) as [Hm|Hm]; [exact Hm|].
      rewrite (H4 Hm), (feq_zero O) in Hy. discriminate. }
    split; [|now apply H3]. split; [lia|]. replace (i - bc + bc)%nat with i by lia. split; [lia|exact M].
Qed.

Lemma eq_high_ok (i : nat) y prev x data : (1 <= i < n)%nat -> 0 <= BarsConfirmation p ->
  eq_ok true i prev x -> rows_ok i data ->
  ((y ==~ fzero) = false -> (bc + bc <= i)%nat) ->
  (no_nan hs -> (y ==~ fzero) = false -> pivot_high hs bc (i - bc) /\ (y ==~ nth (i - bc) hs fzero) = true) ->
  exists y' x' data', eq_step (fun max min band => max <~ (min +~ band)) fEQH y (Z.of_nat i) (nth i atr fzero) p (prev, x, data) = Ok (y', x', data') /\
    eq_ok true (S i) y' x' /\ rows_ok i data'.
Proof.
  intros Hi Hb [Hx He] Hd HB Hy. assert (Eb : BarsConfirmation p = Z.of_nat bc) by (unfold bc; lia).
  unfold eq_step. destruct (y ==~ fzero) eqn:Ez; cbn [negb].
  { do 3 eexists. split; [reflexivity|]. split; [|exact Hd]. split; [lia|]. intros Hn. destruct (He Hn) as [->|(k & -> & Hk & H1 & H2)]; [now left|].
    right. exists k. repeat split; auto; try lia; apply H1. }
  specialize (HB eq_refl). rewrite Eb. replace (Z.of_nat i - Z.of_nat bc) with (Z.of_nat (i - bc)) by lia.
  assert (G : eq_ok true (S i) y (Z.of_nat (i - bc))).
  { split; [lia|]. intros Hn. right. exists (i - bc)%nat. destruct (Hy Hn eq_refl) as [H1 H2]. split; [reflexivity|]. split; [lia|]. now split. }
  destruct (fmax y prev <~ _) eqn:Ec; [|do 3 eexists; split; [reflexivity|]; split; assumption].
  destruct (@draw_rows i fEQH prev x (Z.of_nat (i - bc)) data Hd) as (d & E & Hd'); try lia.
  { intros j Hj. destruct (Classical_Prop.classic (prev = fzero)) as [Hz|Hz]; [now left|]. right. intros Hn.
    destruct (He Hn) as [|(k & -> & Hk & H1 & H2)]; [contradiction|]. destruct (Hy Hn eq_refl) as [H3 H4].
    exists k, (i - bc)%nat. split; [lia|]. split; [exact H1|]. split; [exact H3|]. split; [exact H2|].
    exists y. split; [exact H4|]. replace (i - bc + bc)%nat with i by lia. exact Ec. }
  rewrite E. cbn [bind]. do 3 eexists. split; [reflexivity|]. split; assumption.
Qed.
Lemma eq_low_ok (i : nat) y prev x data : (1 <= i < n)%nat -> 0 <= BarsConfirmation p ->
  eq_ok false i prev x -> rows_ok i data ->
  ((y ==~ fzero) = false -> (bc + bc <= i)%nat) ->
  (no_nan ls -> (y ==~ fzero) = false -> pivot_low ls bc (i - bc) /\ (y ==~ nth (i - bc) ls fzero) = true) ->
  exists y' x' data', eq_step (fun max min band => min >~ (max -~ band)) fEQL y (Z.of_nat i) (nth i atr fzero) p (prev, x, data) = Ok (y', x', data') /\
    eq_ok false (S i) y' x' /\ rows_ok i data'.
Proof.
  intros Hi Hb [Hx He] Hd HB Hy. assert (Eb : BarsConfirmation p = Z.of_nat bc) by (unfold bc; lia).
  unfold eq_step. destruct (y ==~ fzero) eqn:Ez; cbn [negb].
  { do 3 eexists. split; [reflexivity|]. split; [|exact Hd]. split; [lia|]. intros Hn. destruct (He Hn) as [->|(k & -> & Hk & H1 & H2)]; [now left|].
    right. exists k. repeat split; auto; try lia; apply H1. }
  specialize (HB eq_refl). rewrite Eb. replace (Z.of_nat i - Z.of_nat bc) with (Z.of_nat (i - bc)) by lia.
  assert (G : eq_ok false (S i) y (Z.of_nat (i - bc))).
  { split; [lia|]. intros Hn. right. exists (i - bc)%nat. destruct (Hy Hn eq_refl) as [H1 H2]. split; [reflexivity|]. split; [lia|]. now split. }
  destruct (_ <~ fmin y prev) eqn:Ec; [|do 3 eexists; split; [reflexivity|]; split; assumption].
  destruct (@draw_rows i fEQL prev x (Z.of_nat (i - bc)) data Hd) as (d & E & Hd'); try lia.
  { intros j Hj. destruct (Classical_Prop.classic (prev = fzero)) as [Hz|Hz]; [now left|]. right. intros Hn.
    destruct (He Hn) as [|(k & -> & Hk & H1 & H2)]; [contradiction|]. destruct (Hy Hn eq_refl) as [H3 H4].
    exists k, (i - bc)%nat. split; [lia|]. split; [exact H1|]. split; [exact H3|]. split; [exact H2|].
    exists y. split; [exact H4|]. replace (i - bc + bc)%nat with i by lia. exact Ec. }
  rewrite E. cbn [bind]. do 3 eexists. split; [reflexivity|]. split; assumption.
Qed.

(** ** The invariant before bar [i] *)
Record inv (i : nat) (v : Loc) (e : Smc) : Prop := mkInv {
  iv_rows : rows_ok i (sData e);
  iv_bull : blocks_ok i (sBullish e); iv_bear : blocks_ok i (sBearish e);
  iv_cbull : clean_ok (i - 1) (sBullish e); iv_cbear : clean_ok (i - 1) (sBearish e);
  iv_idxb : 0 <= sIdxBullish e < Z.of_nat i; iv_idxs : 0 <= sIdxBearish e < Z.of_nat i;
  iv_top : pv_ok true sw i (lTop v); iv_itop : pv_ok true 5 i (lITop v);
  iv_btm : pv_ok false sw i (lBtm v); iv_ibtm : pv_ok false 5 i (lIBtm v);
  iv_up : 0 <= lUpX v < Z.of_nat i; iv_dn : 0 <= lDnX v < Z.of_nat i;
  iv_eqt : eq_ok true i (lEqTop v) (lEqTopX v); iv_eqb : eq_ok false i (lEqBtm v) (lEqBtmX v) }.

Lemma trail_ok pick y (i : nat) x0 v t u x : trail pick y x0 v (Z.of_nat i) t = (u, x) ->
  0 <= snd t < Z.of_nat i -> ((y ==~ fzero) = false -> 0 <= x0 <= Z.of_nat i) -> 0 <= x < Z.of_nat (S i).
Proof.
  unfold trail. intros E H1 H2. injection E as _ <-. destruct (pick v _ ==~ v); [lia|].
  destruct (y ==~ fzero); cbn [negb snd]; [lia|]. specialize (H2 eq_refl). lia.
Qed.

Lemma smc_bar_ok (i : nat) v e : (1 <= i < n)%nat -> (sw <= i)%nat -> inv i v e ->
  exists v' e', smc_bar p oh atr (Z.of_nat i) v e = Ok (v', e') /\ inv (S i) v' e'.
Proof.
  intros Hi Hs [I1 I2 I3 I4 I5 I6 I7 I8 I9 I10 I11 I12 I13 I14 I15].
  pose proof Sh as (S1 & S2 & S3 & S4 & S5). unfold smc_bar.
  rewrite (@get_nat _ cs i fzero) by lia. cbn [bind].
  rewrite (@get_nat _ hs i fzero) by lia. cbn [bind].
  rewrite (@get_nat _ ls i fzero) by lia. cbn [bind].
  rewrite (@get_nat _ (oTime oh) i 0) by lia. cbn [bind].
  rewrite !slice_0 by lia. cbn [bind]. rewrite Hsw.
  destruct (@swings_ok N O hs ls i sw (sOs1 e)) as (top & btm & os1 & E1 & T1 & B1); try lia. rewrite E1. cbn [bind].
  destruct (@swings_ok N O hs ls i 5 (sOs2 e)) as (itop & ibtm & os2 & E2 & T2 & B2); try lia. change (Z.of_nat 5) with 5 in E2. rewrite E2. cbn [bind].
  pose proof (@arm_ok true sw i top (lTop v) ltac:(lia) I8 T1) as P1.
  pose proof (@arm_ok true 5 i itop (lITop v) ltac:(lia) I9 T2) as P2.
  pose proof (@arm_ok false sw i btm (lBtm v) ltac:(lia) I10 B1) as P3.
  pose proof (@arm_ok false 5 i ibtm (lIBtm v) ltac:(lia) I11 B2) as P4.
  change (Z.of_nat 5) with 5 in P2, P4.
  set (pTop := arm top (Z.of_nat i - Z.of_nat sw) (lTop v)) in *. set (pITop := arm itop (Z.of_nat i - 5) (lITop v)) in *.
  set (pBtm := arm btm (Z.of_nat i - Z.of_nat sw) (lBtm v)) in *. set (pIBtm := arm ibtm (Z.of_nat i - 5) (lIBtm v)) in *.
  destruct (trail fmax top _ _ _ _) as [up upX] eqn:EU. apply trail_ok in EU; [|exact I12|intros; lia].
  destruct (trail fmin btm _ _ _ _) as [dn dnX] eqn:ED. apply trail_ok in ED; [|exact I13|intros; lia].
  (* pivot high, short *)
  destruct (@crosses i (pvY pITop) Hi) as [(x1 & X1) _]. rewrite X1. cbn [bind].
  match goal with |- context [brk oh ?f ?c false fHighBOSShort _ _ _ _ _ _ _] =>
    destruct (@brk_ok f c false fHighBOSShort fHighCHoCHShort i pITop (sData e) (sIdxBullish e) (sBullish e) true 5 Hi P2 I1) as (pITop' & data1 & idxB & bull & F1 & Q1 & D1 & Z1 & L1) end.
  { lia. } { now apply blocks_mono with i; [lia|]. }
  { intros Hf j Hj. apply andb_true_iff in Hf as [Hf _]. apply andb_true_iff in Hf as [Hf _]. subst x1.
    pose proof (@cross_high 5 i pITop j Hi P2 X1 Hj). split; assumption. }
  rewrite F1. cbn [bind]. clear F1.
  (* pivot high, long *)
  destruct (@crosses i (pvY pTop) Hi) as [(x2 & X2) _]. rewrite X2. cbn [bind].
  match goal with |- context [brk oh ?f ?c false fHighBOSLong _ _ _ _ _ _ _] =>
    destruct (@brk_ok f c false fHighBOSLong fHighCHoCHLong i pTop data1 (sIdxBearish e) (sBearish e) true sw Hi P1 D1) as (pTop' & data2 & idxS & bear & F2 & Q2 & D2 & Z2 & L2) end.
  { lia. } { now apply blocks_mono with i; [lia|]. }
  { intros Hf j Hj. apply andb_true_iff in Hf as [Hf _]. subst x2.
    pose proof (@cross_high sw i pTop j Hi P1 X2 Hj). split; assumption. }
  rewrite F2. cbn [bind]. clear F2.
  (* pivot low, short *)
  destruct (@crosses i (pvY pIBtm) Hi) as [_ (x3 & X3)]. rewrite X3. cbn [bind].
  match goal with |- context [brk oh ?f ?c true fLowBOSShort _ _ _ _ _ _ _] =>
    destruct (@brk_ok f c true fLowBOSShort fLowChoCHShort i pIBtm data2 idxB bull false 5 Hi P4 D2 Z1 L1) as (pIBtm' & data3 & idxB' & bull' & F3 & Q3 & D3 & Z3 & L3) end.
  { intros Hf j Hj. apply andb_true_iff in Hf as [Hf _]. apply andb_true_iff in Hf as [Hf _]. subst x3.
    pose proof (@cross_low 5 i pIBtm j Hi P4 X3 Hj). split; assumption. }
  rewrite F3. cbn [bind]. clear F3.
  (* pivot low, long *)
  destruct (@crosses i (pvY pBtm) Hi) as [_ (x4 & X4)]. rewrite X4. cbn [bind].
  match goal with |- context [brk oh ?f ?c true fLowBOSLong _ _ _ _ _ _ _] =>
    destruct (@brk_ok f c true fLowBOSLong fLowChoCHLong i pBtm data3 idxS bear false sw Hi P3 D3 Z2 L2) as (pBtm' & data4 & idxS' & bear' & F4 & Q4 & D4 & Z4 & L4) end.
  { intros Hf j Hj. apply andb_true_iff in Hf as [Hf _]. subst x4.
    pose proof (@cross_low sw i pBtm j Hi P3 X4 Hj). split; assumption. }
  rewrite F4. cbn [bind]. clear F4.
  (* order blocks *)
  destruct (@ob_clean_ok i bull' L3) as (bl & C1 & C2 & C3). rewrite C1. cbn [bind].
  destruct (@ob_clean_ok i bear' L4) as (br & C4 & C5 & C6). rewrite C4. cbn [bind].
  (* EQH/EQL *)
  match goal with |- context [bind (if EqEnable p then ?a else ?b) ?k] =>
    assert (EQ : exists eqT eqTX eqB eqBX data, (if EqEnable p then a else b) = Ok (eqT, eqTX, eqB, eqBX, data) /\
      eq_ok true (S i) eqT eqTX /\ eq_ok false (S i) eqB eqBX /\ rows_ok i data) end.
  { destruct (EqEnable p) eqn:Ee.
    - specialize (Hbc eq_refl).
      destruct (@last_pivot true i ltac:(lia) Hbc) as (pv & y & V1 & V2 & V3 & V4). rewrite V1. cbn [bind]. rewrite V2. cbn [bind].
      destruct (@last_pivot false i ltac:(lia) Hbc) as (pv' & y' & V1' & V2' & V3' & V4'). rewrite V1'. cbn [bind]. rewrite V2'. cbn [bind].
      rewrite (@get_nat _ atr i fzero) by lia. cbn [bind].
      destruct (@eq_high_ok i y (lEqTop v) (lEqTopX v) data4 Hi Hbc I14 D4 V3 V4) as (a1 & a2 & a3 & W1 & W2 & W3). rewrite W1. cbn [bind].
      destruct (@eq_low_ok i y' (lEqBtm v) (lEqBtmX v) a3 Hi Hbc I15 W3 V3' V4') as (b1 & b2 & b3 & W4 & W5 & W6). rewrite W4. cbn [bind].
      do 5 eexists. split; [reflexivity|]. split; [exact W2|]. split; [exact W5|exact W6].
    - do 5 eexists. split; [reflexivity|]. split; [|split; [|exact D4]].
      + destruct I14 as [H1 H2]. split; [lia|]. intros Hn. destruct (H2 Hn) as [->|(k & -> & Hk & H3 & H4)]; [now left|].
        right. exists k. split; [reflexivity|]. split; [lia|]. now split.
      + destruct I15 as [H1 H2]. split; [lia|]. intros Hn. destruct (H2 Hn) as [->|(k & -> & Hk & H3 & H4)]; [now left|].
        right. exists k. split; [reflexivity|]. split; [lia|]. now split. }
  destruct EQ as (eqT & eqTX & eqB & eqBX & data5 & EE & G1 & G2 & G3). rewrite EE. cbn [bind]. clear EE.
  unfold time_in. rewrite (@get_nth _ (oTime oh) upX 0) by (unfold len; lia). cbn [bind].
  rewrite (@get_nth _ (oTime oh) dnX 0) by (unfold len; lia). cbn [bind].
  destruct G3 as [G3 G4]. destruct (@get_in_range _ data5 (Z.of_nat i)) as (r & Er); [unfold len; lia|]. rewrite Er. cbn [bind].
  rewrite set_ok by (unfold len; lia). cbn [bind]. do 2 eexists. split; [reflexivity|].
  apply get_ok_iff in Er as [_ Er]. rewrite Nat2Z.id in *.
  constructor; cbn [sData sBullish sBearish sIdxBullish sIdxBearish lTop lITop lBtm lIBtm lUpX lDnX lEqTop lEqTopX lEqBtm lEqBtmX];
    try assumption; try lia.
  - split; [now rewrite upd_length|]. intros j r' Hr'. destruct (Nat.eq_dec i j) as [<-|Hne].
    + rewrite nth_error_upd_eq in Hr' by lia. injection Hr' as <-. cbn [rVal rTime]. destruct (G4 _ _ Er) as [H1 _]. split; [exact H1|].
      destruct (Nat.leb_spec 1 i); [|lia]. destruct (Nat.leb_spec sw i); [|lia]. destruct (Nat.ltb_spec i (S i)); [|lia]. reflexivity.
    + rewrite nth_error_upd_ne in Hr' by exact Hne. destruct (G4 _ _ Hr') as [H1 H2]. split; [exact H1|]. rewrite H2.
      replace (j <? S i)%nat with (j <? i)%nat; [reflexivity|]. destruct (Nat.ltb_spec j i), (Nat.ltb_spec j (S i)); try lia; reflexivity.
  - replace (S i - 1)%nat with i by lia. exact C3.
  - replace (S i - 1)%nat with i by lia. exact C6.
Qed.

Lemma smc_step_ok (i : nat) v e : (1 <= i < n)%nat -> inv i v e -> ((i < sw)%nat -> sBullish e = [] /\ sBearish e = []) ->
  exists v' e', smc_step p oh atr (Z.of_nat i) (v, e) = Ok (v', e') /\ inv (S i) v' e' /\ ((S i <= sw)%nat -> sBullish e' = [] /\ sBearish e' = []).
Proof.
  intros Hi I Hem. pose proof Sh as (S1 & S2 & S3 & S4 & S5). unfold smc_step.
  rewrite (@get_nat _ cs i fzero) by lia. cbn [bind].
  rewrite (@get_nat _ hs i fzero) by lia. cbn [bind].
  rewrite (@get_nat _ ls i fzero) by lia. cbn [bind].
  rewrite (@get_nat _ (oTime oh) i 0) by lia. cbn [bind].
  set (v1 := mkLoc _ _ _ _ _ _ _ _ _ _ _ _ _ _). rewrite Hsw.
  destruct (Z.ltb_spec (Z.of_nat i) (Z.of_nat sw)) as [Hlt|Hge].
  - exists v1, e. split; [reflexivity|]. destruct (Hem ltac:(lia)) as [Eb Es]. split; [|now intros].
    destruct I as [[Il Ir] I2 I3 I4 I5 I6 I7 [I8 I8'] [I9 I9'] [I10 I10'] [I11 I11'] I12 I13 [I14 I14'] [I15 I15']].
    constructor; cbn [v1 lTop lITop lBtm lIBtm lUpX lDnX lEqTop lEqTopX lEqBtm lEqBtmX]; try lia.
    + split; [exact Il|]. intros j r Hr. destruct (Ir _ _ Hr) as [H1 H2]. split; [exact H1|]. rewrite H2.
      destruct (Nat.leb_spec sw j), (Nat.ltb_spec j i), (Nat.ltb_spec j (S i)); try lia; rewrite ?andb_false_r; reflexivity.
    + apply blocks_mono with i; [lia|exact I2].
    + apply blocks_mono with i; [lia|exact I3].
    + rewrite Eb. split; [cbn; lia|constructor].
    + rewrite Es. split; [cbn; lia|constructor].
    + apply pv_mono with i; [lia|exact (conj I8 I8')].
    + apply pv_mono with i; [lia|exact (conj I9 I9')].
    + apply pv_mono with i; [lia|exact (conj I10 I10')].
    + apply pv_mono with i; [lia|exact (conj I11 I11')].
    + split; [lia|]. intros Hn. destruct (I14' Hn) as [->|(k & -> & Hk & H3 & H4)]; [now left|]. right. exists k. split; [reflexivity|]. split; [lia|]. now split.
    + split; [lia|]. intros Hn. destruct (I15' Hn) as [->|(k & -> & Hk & H3 & H4)]; [now left|]. right. exists k. split; [reflexivity|]. split; [lia|]. now split.
  - assert (I' : inv i v1 e) by (destruct I; constructor; assumption).
    destruct (@smc_bar_ok i v1 e Hi ltac:(lia) I') as (v' & e' & E & I2). exists v', e'. split; [exact E|]. split; [exact I2|]. intros; lia.
Qed.

Lemma smc_loop_ok : (1 <= n)%nat ->
  exists v e, for_ 1 (len cs) (smc_step p oh atr) (loc0, mkSmc (repeat (mkRow zero_time smc_zero) n) [] [] 0 0 0 0 sw_zero sw_zero sw_zero sw_zero) = Ok (v, e) /\
    inv n v e.
Proof.
  intros Hn. pose proof Sh as (S1 & S2 & S3 & S4 & S5). change 1 with (Z.of_nat 1). unfold len. rewrite S4.
  destruct (@for_inv_nat _ (fun i (s : Loc * Smc) => inv i (fst s) (snd s) /\ ((i < S sw)%nat -> sBullish (snd s) = [] /\ sBearish (snd s) = [])) 1 n (smc_step p oh atr)
    (loc0, mkSmc (repeat (mkRow zero_time smc_zero) n) [] [] 0 0 0 0 sw_zero sw_zero sw_zero sw_zero)) as ([v e] & E & I & _).
  - exact Hn.
  - cbn [fst snd sBullish sBearish]. split; [|auto].
    constructor; cbn [sData sBullish sBearish sIdxBullish sIdxBearish loc0 lTop lITop lBtm lIBtm lUpX lDnX lEqTop lEqTopX lEqBtm lEqBtmX]; try lia;
      try (split; constructor); try (split; [cbn; lia|constructor]); try (split; [cbn; lia|now left]); try (split; [lia|intros; now left]).
    1: split; [apply repeat_length|]. 1: intros j r H. 1: apply nth_error_In, repeat_spec in H as ->. 1: split.
    1: intros f; left; destruct f; reflexivity.
    1: destruct (Nat.leb_spec 1 j), (Nat.ltb_spec j 1); try lia; rewrite ?andb_false_r; reflexivity.
    all: try reflexivity; cbn; lia.
  - intros i [v e] Hi [I Hem]. destruct (@smc_step_ok i v e Hi I) as (v' & e' & E & I' & Hem'); [intros; apply Hem; lia|].
    exists (v', e'). split; [exact E|]. split; [exact I'|]. intros; apply Hem'; lia.
  - exists v, e. split; [exact E|exact I].
Qed.
End Bar.
