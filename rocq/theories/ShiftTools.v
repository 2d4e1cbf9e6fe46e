(** * ShiftTools: series of a chart and of the same chart moved by a constant. *)
From Coq Require Import Reals Lra ZArith Lia Bool List PeanoNat.
From Verif Require Import Base Num XReal Order OrderMore FloatLaws FloatOrder FloatBounds SpecNum B64 Lits Containers Ta TaTools TaAvg TaRange TaStat SpecTa Sides Klines RSum XrMore
  IndBase IndTrend IndChannel IndOsc IndVolume IndTools IndForms IndForms2 IndForms3 IndForms4 IndForms5 IndFormsSpec IndBounds IndBounds2 IndExact TaDev TaReg SpecInd SpecInd2 SpecBar SpecMemory SpecShift
  PropInd1 PropInd2 PropInd5 PropInd6 PropInd7 PropInd8 PropInd9 PropInd11 PropInd12 PropMemory.
Import ListNotations.
Set Implicit Arguments.
Open Scope Z_scope.
Local Notation C kl := (fun i => cClose (cn kl i)).
Local Notation rows kl g := (Ok (tab (length kl) (fun i => mkRow (tm kl i) (g i)))).
Local Notation kline := (list (Candle (N := XR))).

(** ** Numbers that differ by a known amount *)
Definition mrel (w : R) (x y : @F XR) : Prop := exists r, x = Fin r /\ y = Fin (r + w)%R.
Definition moved (w : R) (n : nat) (f g : nat -> @F XR) : Prop := forall j, (j < n)%nat -> mrel w (f j) (g j).

Lemma mrel_eq0 x y : mrel 0 x y -> y = x.
Proof. intros (r & -> & ->). f_equal. lra. Qed.
Lemma mrel_w a b x y : mrel a x y -> a = b -> mrel b x y.
Proof. now intros H ->. Qed.
Lemma mrel_c r : mrel 0 (Fin r) (Fin r).
Proof. exists r. split; [reflexivity|f_equal; lra]. Qed.
Lemma mrel_self x : isR x -> mrel 0 x x.
Proof. intros (r & ->). apply mrel_c. Qed.
Lemma mrel_isR a x y : mrel a x y -> isR x /\ isR y.
Proof. intros (r & -> & ->). split; eexists; reflexivity. Qed.
Lemma mrel_add a b x x' y y' : mrel a x x' -> mrel b y y' -> mrel (a + b) (x +~ y) (x' +~ y').
Proof. intros (r & -> & ->) (s & -> & ->). exists (r + s)%R. split; [reflexivity|]. cbn. f_equal. lra. Qed.
Lemma mrel_sub a b x x' y y' : mrel a x x' -> mrel b y y' -> mrel (a - b) (x -~ y) (x' -~ y').
Proof. intros (r & -> & ->) (s & -> & ->). exists (r - s)%R. split; [reflexivity|]. cbn. f_equal. lra. Qed.
Lemma mrel_mulc a k x x' : mrel a x x' -> mrel (a * k) (x *~ (Fin k : @F XR)) (x' *~ (Fin k : @F XR)).
Proof. intros (r & -> & ->). exists (r * k)%R. split; [reflexivity|]. cbn. f_equal. lra. Qed.
Lemma mrel_divZ a k x x' : k <> 0 -> mrel a x x' -> mrel (a / IZR k) (x /~ ofZ k) (x' /~ ofZ k).
Proof.
  intros Hk (r & -> & ->). exists (r / IZR k)%R. assert (IZR k <> 0)%R by (now apply not_0_IZR). cbn.
  destruct (Reqb_spec (IZR k) 0) as [E|E]; [contradiction|]. split; [reflexivity|]. f_equal. field. assumption.
Qed.
Lemma half_is : @ofZ XR 1 /~ ofZ 2 = (Fin (/ 2) : @F XR).
Proof. cbn. destruct (Reqb_spec 2 0) as [E|E]; [lra|]. f_equal. lra. Qed.
Lemma sub_same w x x' y y' : mrel w x x' -> mrel w y y' -> x' -~ y' = x -~ y.
Proof. intros (r & -> & ->) (s & -> & ->). cbn. f_equal. lra. Qed.
Lemma dif_same w x x' y y' : mrel w x x' -> mrel w y y' -> x' +~ y' *~ ofZ (-1) = x +~ y *~ ofZ (-1).
Proof. intros (r & -> & ->) (s & -> & ->). cbn. f_equal. lra. Qed.
Lemma Rltb_shift a b w : Rltb (a + w) (b + w) = Rltb a b.
Proof. destruct (Rltb_spec (a + w) (b + w)), (Rltb_spec a b); auto; lra. Qed.
Lemma Reqb_shift a b w : Reqb (a + w) (b + w) = Reqb a b.
Proof. destruct (Reqb_spec (a + w) (b + w)), (Reqb_spec a b); auto; lra. Qed.
Lemma lt_same w x x' y y' : mrel w x x' -> mrel w y y' -> (x' <~ y') = (x <~ y).
Proof. intros (r & -> & ->) (s & -> & ->). cbn. apply Rltb_shift. Qed.
Lemma eq_same w x x' y y' : mrel w x x' -> mrel w y y' -> (x' ==~ y') = (x ==~ y).
Proof. intros (r & -> & ->) (s & -> & ->). cbn. apply Reqb_shift. Qed.

(** ** The moved chart *)
Section Chart.
Variables (c : R) (kl : kline).
Hypothesis Hr : real_candles kl.
Local Notation kl' := (map (lifted c) kl).
Lemma cn_lift i : (i < length kl)%nat -> cn kl' i = lifted c (cn kl i).
Proof. intros Hi. unfold cn. rewrite nth_indep with (d' := lifted c (blank (N := XR) 0)) by (now rewrite map_length). apply map_nth. Qed.
Lemma tm_lift i : (i < length kl)%nat -> tm kl' i = tm kl i.
Proof. intros Hi. unfold tm. now rewrite cn_lift. Qed.
Lemma lift_close : moved c (length kl) (C kl) (C kl').
Proof. intros j Hj. rewrite cn_lift by exact Hj. destruct (real_cn Hr Hj) as (b & _ & _ & _ & E & _). exists (bC b). cbn [lifted cClose]. rewrite E. now split. Qed.
Lemma lift_high : moved c (length kl) (fun i => cHigh (cn kl i)) (fun i => cHigh (cn kl' i)).
Proof. intros j Hj. rewrite cn_lift by exact Hj. destruct (real_cn Hr Hj) as (b & _ & E & _). exists (bH b). cbn [lifted cHigh]. rewrite E. now split. Qed.
Lemma lift_low : moved c (length kl) (fun i => cLow (cn kl i)) (fun i => cLow (cn kl' i)).
Proof. intros j Hj. rewrite cn_lift by exact Hj. destruct (real_cn Hr Hj) as (b & _ & _ & E & _). exists (bL b). cbn [lifted cLow]. rewrite E. now split. Qed.
Lemma lift_open : moved c (length kl) (fun i => cOpen (cn kl i)) (fun i => cOpen (cn kl' i)).
Proof. intros j Hj. rewrite cn_lift by exact Hj. destruct (real_cn Hr Hj) as (b & E & _). exists (bO b). cbn [lifted cOpen]. rewrite E. now split. Qed.
Lemma lift_volume j : (j < length kl)%nat -> cVolume (cn kl' j) = cVolume (cn kl j).
Proof. intros Hj. now rewrite cn_lift by exact Hj. Qed.
Lemma lift_real : real_candles kl'.
Proof.
  clear -Hr. destruct Hr as (bs & H). exists (map (fun b => mkBar (bO b + c) (bH b + c) (bL b + c) (bC b + c) (bV b)) bs).
  induction H as [|k b kl bs Hk H IH]; [constructor|]. constructor; [|apply IH; now exists bs]. destruct Hk as (H1 & H2 & H3 & H4 & H5). unfold is_bar, lifted. cbn. rewrite H1, H2, H3, H4, H5. cbn. auto.
Qed.
End Chart.
Lemma lift_map (q : Candle (N := XR) -> @F XR) c kl : (forall k, q (lifted c k) = q k +~ (Fin c : @F XR)) -> map q (map (lifted c) kl) = map (fun x => x +~ (Fin c : @F XR)) (map q kl).
Proof. intros Hq. rewrite !map_map. apply map_ext. exact Hq. Qed.

(** ** Series *)
Lemma moved_le w n m f g : moved w n f g -> (m <= n)%nat -> moved w m f g.
Proof. intros H Hm j Hj. apply H. lia. Qed.
Lemma moved_ema p w n f g : 0 <= p -> moved w n f g -> moved w n (emaF p f) (emaF p g).
Proof.
  intros Hp H j. induction j as [|j IH]; intros Hj; cbn [emaF]; [now apply H|].
  destruct (IH ltac:(lia)) as (e & -> & ->), (H (S j) Hj) as (r & -> & ->).
  assert (IZR (p + 1) <> 0)%R by (apply not_0_IZR; lia). exists ((2 * r + IZR (p - 1) * e) / IZR (p + 1))%R. cbn.
  destruct (Reqb_spec (IZR (p + 1)) 0) as [E|E]; [contradiction|]. split; [reflexivity|]. f_equal. rewrite minus_IZR in *. rewrite plus_IZR in *. field. assumption.
Qed.
Lemma Rsum_shift w l : Rsum (map (fun x => x + w)%R l) = (Rsum l + INR (length l) * w)%R.
Proof. induction l as [|x l IH]; [unfold Rsum; cbn; lra|]. cbn [map length]. change (Rsum ((x + w)%R :: map (fun x => x + w)%R l)) with ((x + w) + Rsum (map (fun x => x + w) l))%R. change (Rsum (x :: l)) with (x + Rsum l)%R. rewrite IH, S_INR. lra. Qed.
Lemma mean_shift w l : l <> [] -> mean (map (fun x => x + w)%R l) = (mean l + w)%R.
Proof. intros Hl. unfold mean. rewrite Rsum_shift, map_length. assert (INR (length l) <> 0)%R by (apply not_0_INR; destruct l; [congruence|discriminate]). field. assumption. Qed.
Lemma mad_shift w l : mad (map (fun x => x + w)%R l) = mad l.
Proof. destruct l as [|x l]; [reflexivity|]. unfold mad. rewrite mean_shift by discriminate. rewrite map_map. f_equal. apply map_ext. intros y. f_equal. lra. Qed.
Lemma variance_shift w l : variance (map (fun x => x + w)%R l) = variance l.
Proof. destruct l as [|x l]; [reflexivity|]. unfold variance. rewrite mean_shift by discriminate. rewrite map_map. f_equal. apply map_ext. intros y. f_equal; lra. Qed.
Lemma moved_reals w n f g : moved w n f g -> exists h, (forall j, (j < n)%nat -> f j = Fin (h j)) /\ (forall j, (j < n)%nat -> g j = Fin (h j + w)%R).
Proof.
  intros H. exists (fun j => val (f j)). split; intros j Hj; destruct (H j Hj) as (r & E & E'); rewrite ?E', E; reflexivity.
Qed.
Lemma window_tab_ne (h : nat -> R) n i p : (1 <= p)%nat -> (i < n)%nat -> window (tab n h) i p <> [].
Proof. intros Hp Hi E. apply (f_equal (@length _)) in E. rewrite window_length_eq in E by (rewrite tab_length; lia). cbn [length] in E. lia. Qed.
Lemma moved_sma p w n f g : (1 <= p)%nat -> moved w n f g -> moved w n (smaF p f) (smaF p g).
Proof.
  intros Hp H j Hj. destruct (moved_reals H) as (h & E1 & E2).
  rewrite (@smaF_exact p f h n j Hp Hj E1), (@smaF_exact p g (fun i => h i + w)%R n j Hp Hj E2).
  exists (mean (window (tab n h) j p)). split; [reflexivity|]. f_equal.
  rewrite <- (tabmap (fun x => x + w)%R n h), window_map. apply mean_shift. now apply window_tab_ne.
Qed.
Lemma same_moved n f g : moved 0 n f g -> forall j, (j < n)%nat -> g j = f j.
Proof. intros H j Hj. apply mrel_eq0. now apply H. Qed.
Lemma runF_same p n f g : (forall j, (j < n)%nat -> g j = f j) -> forall j, (j <= n)%nat -> runF (N := XR) p g j = runF p f j.
Proof. intros H. induction j as [|j IH]; intros Hj; cbn [runF]; [reflexivity|]. rewrite IH, !H by lia. reflexivity. Qed.
Lemma smaF_same p n f g : (forall j, (j < n)%nat -> g j = f j) -> forall j, (j < n)%nat -> smaF (N := XR) p g j = smaF p f j.
Proof. intros H j Hj. unfold smaF. rewrite (@runF_same p n f g H (S j)) by lia. reflexivity. Qed.
Lemma emaF_same p n f g : (forall j, (j < n)%nat -> g j = f j) -> forall j, (j < n)%nat -> emaF (N := XR) p g j = emaF p f j.
Proof. intros H j Hj. apply emaF_ext. intros k Hk. apply H. lia. Qed.
Lemma ringS_same p n f g : (forall j, (j < n)%nat -> g j = f j) -> forall j, (j < n)%nat -> ringS (N := XR) p g j = ringS p f j.
Proof. intros H. induction j as [|j IH]; intros Hj; cbn [ringS]; [reflexivity|]. rewrite IH, H by lia. unfold lagged0. destruct (_ <=? _)%nat; [reflexivity|]. rewrite H by lia. reflexivity. Qed.
Lemma smoothF_same p n f g : (forall j, (j < n)%nat -> g j = f j) -> forall j, (j < n)%nat -> smoothF (N := XR) p g j = smoothF p f j.
Proof. intros H. induction j as [|j IH]; intros Hj; cbn [smoothF]; [reflexivity|]. rewrite IH, H by lia. reflexivity. Qed.
(** the running average never reads the first value *)
Lemma rmaF_same p n f g : (forall j, (1 <= j < n)%nat -> g j = f j) -> forall j, (j < n)%nat -> rmaF (N := XR) p n g j = rmaF p n f j.
Proof.
  intros H j Hj. unfold rmaF. f_equal. revert Hj. induction j as [|j IH]; intros Hj; cbn [rmaS]; [reflexivity|]. rewrite IH by lia. rewrite !tab_nth by lia. now rewrite H by lia.
Qed.

Arguments emaF_same p {n f g} _ {j} _.
Arguments smaF_same p {n f g} _ {j} _.
Arguments ringS_same p {n f g} _ {j} _.
Arguments smoothF_same p {n f g} _ {j} _.

(** ** From closed forms to the statements *)
Lemma nth_error_skipn A (l : list A) k i : nth_error (skipn k l) i = nth_error l (k + i).
Proof. revert l; induction k as [|k IH]; intros [|x l]; cbn; auto. now destruct i. Qed.
Lemma nth_error_tab A n (f : nat -> A) i : (i < n)%nat -> nth_error (tab n f) i = Some (f i).
Proof. intros Hi. rewrite (nth_error_nth' _ (f i)) by (now rewrite tab_length). now rewrite tab_nth. Qed.
Lemma follows_T (I : Indicator (N := XR)) (p : Param I) (f : Val I -> @F XR) k (P : kline -> (nat -> Val I) -> Prop) :
  (forall kl, real_candles kl -> (k <= length kl)%nat -> exists g, rows_of I p kl = rows kl g /\ P kl g) ->
  (forall c kl g g', real_candles kl -> P kl g -> P (map (lifted c) kl) g' -> forall i, (k - 1 <= i < length kl)%nat -> mrel c (f (g i)) (f (g' i))) ->
  follows_level I p f k.
Proof.
  intros HT HP c kl Hr Hk. destruct (HT kl Hr Hk) as (g & E & Pg). destruct (HT (map (lifted c) kl)) as (g' & E' & Pg'); [now apply lift_real|now rewrite map_length|].
  eexists _, _. split; [exact E|]. split; [exact E'|]. split; [apply tab_length|]. rewrite map_length. unfold column. rewrite !tabmap. cbn [rVal].
  rewrite <- !(skipn_map (fun x => x +~ (Fin c : @F XR))), tabmap. apply list_ext. intros i. rewrite !nth_error_skipn.
  destruct (Nat.lt_ge_cases (k - 1 + i) (length kl)) as [Hi|Hi]; [|now rewrite !(proj2 (nth_error_None _ _)) by (rewrite tab_length; lia)].
  rewrite !nth_error_tab by exact Hi. f_equal. destruct (HP c kl g g' Hr Pg Pg' (k - 1 + i)%nat ltac:(lia)) as (r & -> & ->). reflexivity.
Qed.
Lemma ignores_T B (I : Indicator (N := XR)) (p : Param I) (f : Val I -> B) (P : kline -> (nat -> Val I) -> Prop) :
  (forall kl, real_candles kl -> exists g, rows_of I p kl = rows kl g /\ P kl g) ->
  (forall c kl g g', real_candles kl -> P kl g -> P (map (lifted c) kl) g' -> forall i, (i < length kl)%nat -> f (g' i) = f (g i)) ->
  ignores_level I p f.
Proof.
  intros HT HP c kl Hr. destruct (HT kl Hr) as (g & E & Pg). destruct (HT (map (lifted c) kl)) as (g' & E' & Pg'); [now apply lift_real|].
  eexists _, _. split; [exact E|]. split; [exact E'|]. split; [apply tab_length|]. rewrite map_length. unfold column. rewrite !tabmap. cbn [rVal].
  apply tab_ext. intros i Hi. now apply (HP c kl g g').
Qed.
