(** * PropTies: property C106, float64 rows and signals against the exact ones. *)
From Coq Require Import Reals Lra ZArith Lia Bool List PeanoNat SpecFloat.
From Verif Require Import Base Num B64 XReal Order OrderMore Rounding FloatLaws FloatOrder RSum Containers Ta TaTools TaAvg SpecTa Sides Klines Lits
  IndBase IndTrend IndChannel IndOsc IndVolume IndAll IndTools IndForms IndForms2 IndForms4 IndFormsSpec IndBounds SpecInd SpecInd2 SpecNum FloatError PropFloat IndLife IndSides IndTimes IndSignals CrashSides
  PropInd1 PropInd3 SpecFlat PropFlat PropFlat2 PropFlat3 SpecTies NearTools.
Import ListNotations.
Set Implicit Arguments.
Open Scope Z_scope.
Local Notation C kl := (fun i => cClose (cn kl i)).
Local Notation rows kl g := (Ok (tab (length kl) (fun i => mkRow (tm kl i) (g i)))).

(** ** Tools *)
Lemma both_sidesN (N : Num) (I : Indicator (N := N)) p f kl d : In I append_style \/ In I make_style -> (forall n, counts I n) -> Sides I = Some f -> rows_of I p kl = Ok d -> length d = length kl ->
  exists s, sides_of I p kl = Ok s /\ length s = length kl.
Proof.
  intros HI Hc Hf Hd Ld. assert (HA : In I all_indicators) by (unfold all_indicators; rewrite !in_app_iff; tauto). destruct (@sides_total N I HA f p kl d Hf Hd Ld) as (s & Es).
  assert (E : sides_of I p kl = Ok s). { unfold sides_of, AnalysisSide. rewrite Hf. fold (rows_of I p kl). rewrite Hd. cbn [bind]. rewrite Es. reflexivity. }
  exists s. split; [exact E|]. eapply C40_sides; [|apply Hc|exact E]. exact HI.
Qed.
Lemma signal_same (B S B' S' : Prop) x y : (B <-> B') -> (S <-> S') -> signal B S x -> signal B' S' y -> x = y.
Proof.
  intros E1 E2 (A1 & A2 & A3) (A1' & A2' & A3'). destruct (Classical_Prop.classic B) as [HB|HB].
  - rewrite (A1 HB), (A1' (proj1 E1 HB)). reflexivity.
  - assert (HB' : ~ B') by tauto. destruct (Classical_Prop.classic S) as [HS|HS]; [rewrite (A2 HB HS), (A2' HB' (proj1 E2 HS)); reflexivity|]. rewrite (A3 HB HS), A3' by tauto. reflexivity.
Qed.
Section Chart.
Variables (L : MathLib) (M : R) (kl : list (Candle (N := B64 L))) (ke : list (Candle (N := XR))).
Hypothesis Hch : same_chart M kl ke.
Lemma ch_len : length ke = length kl.
Proof. unfold same_chart in Hch. induction Hch as [|? ? ? ? ? ? IH]; [reflexivity|]. cbn. f_equal. now apply IH. Qed.
Lemma ch_at i : (i < length kl)%nat -> same_candle M (cn kl i) (cn ke i).
Proof.
  unfold cn. unfold same_chart in Hch. revert i. induction Hch as [|? ? ? ? ? ? IH]; intros i Hi; [cbn in Hi; lia|]. destruct i as [|i]; [assumption|]. apply (IH f i). cbn in Hi. lia.
Qed.
Lemma ch_close i : (i < length kl)%nat -> close M 0 (C kl i) (C ke i).
Proof. intros Hi. apply same_close. apply (ch_at Hi). Qed.
Lemma ch_high i : (i < length kl)%nat -> close M 0 (cHigh (cn kl i)) (cHigh (cn ke i)).
Proof. intros Hi. apply same_close. apply (ch_at Hi). Qed.
Lemma ch_low i : (i < length kl)%nat -> close M 0 (cLow (cn kl i)) (cLow (cn ke i)).
Proof. intros Hi. apply same_close. apply (ch_at Hi). Qed.
Hypothesis HM : (0 <= M <= 2 ^ 960)%R.
Lemma ema_close p : 1 <= p < 2 ^ 32 -> forall i, (i < length kl)%nat -> close M (IZR (p + 1) * grain M) (emaF p (C kl) i) (emaF p (C ke) i).
Proof.
  intros Hp i Hi. destruct (@ema_room p M 0%R Hp HM ltac:(lra)) as [H1 H2].
  eapply close_le; [apply (@close_ema L p (length kl) M 0%R _ _ (proj1 Hp) H1 H2 ch_close i Hi)|lra|]. rewrite grain_u. right. ring.
Qed.
(** the difference of two averages *)
Lemma dif_close p q : 1 <= p < 2 ^ 32 -> 1 <= q < 2 ^ 32 -> forall i, (i < length kl)%nat ->
  close (2 * M) (IZR (p + q + 3) * grain M) (emaF p (C kl) i +~ emaF q (C kl) i *~ ofZ (-1)) (emaF p (C ke) i +~ emaF q (C ke) i *~ ofZ (-1)).
Proof.
  intros Hp Hq i Hi. destruct (@period_grain p M Hp (proj1 HM)) as (W & P1 & P2). destruct (@period_grain q M Hq (proj1 HM)) as (_ & Q1 & Q2).
  set (w := grain M) in *. assert (Ew : w = (M * (4 * u) + tiny)%R) by apply grain_u. pose proof (proj1 tiny_1) as T.
  destruct big_split as (B & B1 & EB & Hb). pose proof HM as HB. rewrite <- EB in HB.
  eapply close_le; [apply (@close_sub L _ _ _ _ _ _ _ _ (ema_close Hp Hi) (ema_close Hq Hi))|..]; fold w.
  - rewrite Hb. lra.
  - lra.
  - rewrite !Rmult_plus_distr_l. replace (IZR (p + q + 3)) with (IZR (p + 1) + IZR (q + 1) + 1)%R by (rewrite !plus_IZR; ring). rewrite !Rmult_plus_distr_r. lra.
Qed.
End Chart.
Lemma tab_rows_near L (A B : Type) (f : A -> @F (B64 L)) (g : B -> @F XR) M e n (t t' : nat -> Z) (a : nat -> A) (b : nat -> B) :
  (forall i, (i < n)%nat -> close M e (f (a i)) (g (b i))) -> rows_near f g e (tab n (fun i => mkRow (t i) (a i))) (tab n (fun i => mkRow (t' i) (b i))).
Proof.
  intros H. split; [now rewrite !tab_length|]. intros i v w Hv Hw. apply tab_some in Hv as [Hi ->]. apply tab_some in Hw as [_ ->]. cbn [rVal]. eapply close_near; [exact (H i Hi)|lra].
Qed.

(** Two readings of one indicator whose rules agree on rows [i] and [i-1]. *)
Lemma agree (L : MathLib) (If : Indicator (N := B64 L)) (Ix : Indicator (N := XR)) pf px Bf Sf Bx Sx kl ke (gf : nat -> Val If) (gx : nat -> Val Ix) sf sx i :
  follows If pf 1 Bf Sf -> follows Ix px 1 Bx Sx -> skips_first If -> skips_first Ix -> (forall n, fits If n) -> (forall n, fits Ix n) -> length ke = length kl ->
  rows_of If pf kl = Ok (tab (length kl) (fun i => mkRow (tm kl i) (gf i))) -> rows_of Ix px ke = Ok (tab (length kl) (fun i => mkRow (tm ke i) (gx i))) ->
  sides_of If pf kl = Ok sf -> sides_of Ix px ke = Ok sx -> length sf = length kl -> length sx = length kl ->
  ((1 <= i < length kl)%nat -> (Bf (cn kl i) (cn kl (pred i)) (gf i) (gf (pred i)) <-> Bx (cn ke i) (cn ke (pred i)) (gx i) (gx (pred i))) /\
     (Sf (cn kl i) (cn kl (pred i)) (gf i) (gf (pred i)) <-> Sx (cn ke i) (cn ke (pred i)) (gx i) (gx (pred i)))) ->
  nth_error sf i = nth_error sx i.
Proof.
  intros Ff Fx Kf Kx Tf Tx Le Ef Ex Hf Hx Lf Lx Hr.
  destruct (Nat.lt_ge_cases i (length kl)) as [Hi|Hi]; [|rewrite !(proj2 (nth_error_None _ _)) by lia; reflexivity].
  assert (NE : kl <> [] /\ ke <> []) by (split; intros ->; cbn in *; lia).
  destruct (Nat.eq_dec i 0) as [->|Hn].
  { rewrite (@first_is_buy _ If pf kl sf Kf (proj1 NE) (Tf _) Hf). symmetry. exact (@first_is_buy _ Ix px ke sx Kx (proj2 NE) (Tx _) Hx). }
  destruct (Hr ltac:(lia)) as [R1 R2].
  assert (K : forall j, (j < length kl)%nat -> nth_error kl j = Some (cn kl j) /\ nth_error ke j = Some (cn ke j)) by (intros j Hj; split; apply nth_error_nth'; lia).
  destruct (nth_error sf i) as [x|] eqn:E1; [|apply nth_error_None in E1; lia]. destruct (nth_error sx i) as [y|] eqn:E2; [|apply nth_error_None in E2; lia]. f_equal.
  assert (HP : (pred i < length kl)%nat) by lia.   destruct (K i Hi) as [K1 K2], (K (pred i) ltac:(lia)) as [K3 K4].
  pose proof (Ff kl _ sf Ef Hf i _ _ _ _ x ltac:(lia) ltac:(lia) K1 K3 (tab_nth_error _ Hi) (tab_nth_error _ HP) E1) as G1.
  pose proof (Fx ke _ sx Ex Hx i _ _ _ _ y ltac:(lia) ltac:(lia) K2 K4 (tab_nth_error _ Hi) (tab_nth_error _ HP) E2) as G2.
  cbn [rVal] in G1, G2. exact (signal_same R1 R2 G1 G2).
Qed.
(** [f i] compares with zero as [g i] does, at every row that is clear *)
Definition zero_alike L (x : @F (B64 L)) (a : @F XR) : Prop := (x <~ ofZ 0) = (a <~ ofZ 0) /\ (ofZ 0 <~ x) = (ofZ 0 <~ a).
Lemma zero_lt L M e (x : @F (B64 L)) a r : close M e x a -> a = Fin r -> (e < Rabs r)%R -> zero_alike x a.
Proof.
  intros Hc -> Hr. split; eapply close_lt; try exact Hc; try exact (@close_Z L 0 ltac:(cbn; lia)).
  - intros s t E1 E2. injection E1 as <-. injection E2 as <-. change (IZR 0) with 0%R. rewrite Rminus_0_r. lra.
  - intros s t E1 E2. injection E1 as <-. injection E2 as <-. change (IZR 0) with 0%R. replace (0 - r)%R with (- r)%R by ring. rewrite Rabs_Ropp. lra.
Qed.
Lemma close_alike L (x y : @F (B64 L)) (a b : @F XR) r s : fin x -> fin y -> a = Fin r -> b = Fin s -> val x = r -> val y = s -> (x <~ y) = (a <~ b).
Proof. intros Hx Hy -> -> E1 E2. cbn [flt B64 XR]. rewrite lt_val, E1, E2 by assumption. reflexivity. Qed.
Lemma zero_same L (x : @F (B64 L)) a : fin x -> val x = 0%R -> a = Fin 0 -> zero_alike x a.
Proof. intros Hx Vx ->. destruct (@ofZ_val 0) as [F0 V0]; [cbn; lia|]. split; cbn [flt B64 XR ofZ]; rewrite lt_val, Vx, V0 by assumption; reflexivity. Qed.
Lemma clear_zero L (B : Type) (g : B -> @F XR) M e n (t : nat -> Z) (b : nat -> B) (f : nat -> @F (B64 L)) i : (i < n)%nat ->
  (forall i, (i < n)%nat -> close M e (f i) (g (b i))) -> val (f 0%nat) = 0%R -> g (b 0%nat) = Fin 0 ->
  clear g e (tab n (fun i => mkRow (t i) (b i))) i -> zero_alike (f i) (g (b i)).
Proof.
  intros Hi Hc V0 E0 [->|(w & r & H & E & Hr)]; [apply zero_same; [now destruct (Hc 0%nat Hi) as (s & ? & _)|exact V0|exact E0]|].
  apply tab_some in H as [_ ->]. exact (zero_lt (Hc i Hi) E Hr).
Qed.
(** a number minus itself *)
Lemma self_zero L M e (x : @F (B64 L)) a : close M e x a -> (2 * (M + e) <= big)%R -> val (x +~ x *~ ofZ (-1)) = 0%R /\ a +~ a *~ ofZ (-1) = (Fin 0 : @F XR).
Proof.
  intros Hc Hb. pose proof (close_abs Hc) as A. destruct Hc as (s & Hx & -> & _). destruct (@neg_exact L x Hx) as [Fn Vn]. split; [|cbn; apply (f_equal Fin); ring].
  destruct (@add_err L x (x *~ ofZ (-1)) Hx Fn) as [_ E].
  - rewrite Vn, Rplus_opp_r, Rabs_R0. pose proof (Rabs_pos (val x)). lra.
  - rewrite Vn, Rplus_opp_r, Rabs_R0, Rmult_0_r, Rminus_0_r in E. unfold Rabs in E. destruct (Rcase_abs (val (x +~ x *~ ofZ (-1)))); lra.
Qed.
Lemma price_room M : (0 <= M <= 2 ^ 960)%R -> (2 * (M + 0) <= big)%R.
Proof. intros HM. destruct big_split as (B & B1 & EB & ->). rewrite <- EB in HM. lra. Qed.
Ltac in_all := unfold append_style, make_style; cbn [In]; tauto.
Ltac no_proj := let H := fresh in intros ? H; discriminate H.

(** ** C106 *)
(** AbsolutePriceOscillator: each value is within (fast + slow + 3) grains of the exact one, and the signals of every bar
    are the exact ones as long as the exact oscillator is further than that from zero at the bar and at the one before. *)
Theorem C106_APO (L : MathLib) (p : FastSlow) (M : R) kl ke : 1 <= fsFast p < 2 ^ 32 -> 1 <= fsSlow p < 2 ^ 32 -> (0 <= M <= 2 ^ 960)%R -> same_chart (L := L) M kl ke ->
  exists rf rx sf sx, rows_of I_APO p kl = Ok rf /\ rows_of I_APO p ke = Ok rx /\ sides_of I_APO p kl = Ok sf /\ sides_of I_APO p ke = Ok sx /\
    length rx = length kl /\ length sf = length kl /\ length sx = length kl /\
    let e := (IZR (fsFast p + fsSlow p + 3) * grain M)%R in let own := fun v : @F XR => v in
    rows_near (L := L) (fun v => v) own e rf rx /\
    forall i, clear own e rx i -> clear own e rx (pred i) -> nth_error sf i = nth_error sx i.
Proof.
  intros H1 H2 HM Hch. pose proof (ch_len Hch) as Le.
  destruct (@both_sidesN _ I_APO p _ kl _ ltac:(in_all) ltac:(no_proj) eq_refl (APO_T p kl) ltac:(apply tab_length)) as (sf & Ef & Lf).
  destruct (@both_sidesN _ I_APO p _ ke _ ltac:(in_all) ltac:(no_proj) eq_refl (APO_T p ke) ltac:(apply tab_length)) as (sx & Ex & Lx).
  assert (Rx : rows_of I_APO p ke = Ok (tab (length kl) (fun i => mkRow (tm ke i) (apoF p ke i)))) by (rewrite APO_T, Le; reflexivity).
  exists (tab (length kl) (fun i => mkRow (tm kl i) (apoF p kl i))), (tab (length kl) (fun i => mkRow (tm ke i) (apoF p ke i))), sf, sx.
  split; [apply APO_T|]. split; [exact Rx|]. split; [exact Ef|]. split; [exact Ex|]. split; [apply tab_length|]. split; [exact Lf|]. split; [congruence|]. intros e own.
  pose proof (dif_close Hch HM H1 H2) as D. split; [eapply tab_rows_near; exact D|]. intros i Ci Cp.
  assert (Z : forall j, (j < length kl)%nat -> clear own e (tab (length kl) (fun i => mkRow (tm ke i) (apoF p ke i))) j -> zero_alike (apoF p kl j) (apoF p ke j)).
  { intros j Hj Hc. destruct (self_zero (ch_close Hch (i := 0%nat) ltac:(lia)) (price_room HM)) as [Y1 Y2]. exact (@clear_zero L _ own _ e _ _ _ (apoF p kl) j Hj D Y1 Y2 Hc). }
  eapply (@agree L I_APO I_APO p p); [apply C64_APO|apply C64_APO|unfold skips_first; cbn [In]; tauto|unfold skips_first; cbn [In]; tauto|no_proj|no_proj|exact Le|apply APO_T|exact Rx|exact Ef|exact Ex|exact Lf|congruence|].
  intros Hi. destruct (Z i ltac:(lia) Ci) as [Z1 Z2], (Z (pred i) ltac:(lia) Cp) as [Z3 Z4]. rewrite Z1, Z2, Z3, Z4. tauto.
Qed.

(** AwesomeOscillator *)
Lemma half_val (L : MathLib) : fin (@ofZ (B64 L) 1 /~ ofZ 2) /\ val (@ofZ (B64 L) 1 /~ ofZ 2) = (/ 2)%R.
Proof.
  destruct (@ofZ_val 1) as [F1 V1]; [cbn; lia|]. destruct (@ofZ_val 2) as [F2 V2]; [cbn; lia|].
  assert (E : (val (b_ofZ 1) / val (b_ofZ 2) = / 2)%R) by (rewrite V1, V2; field).
  assert (G : Rounding.rnd (/ 2) = (/ 2)%R) by (apply rnd_half).
  destruct (@div_val (b_ofZ 1) (b_ofZ 2) F1 F2) as [Fd Vd]; [rewrite V2; lra|rewrite E, G; apply half_huge|]. split; [exact Fd|]. cbn [fdiv ofZ B64]. rewrite Vd, E. exact G.
Qed.
Lemma half_xr : @ofZ XR 1 /~ ofZ 2 = (Fin (/ 2) : @F XR).
Proof. cbn. destruct (Reqb_spec 2 0); [lra|]. apply (f_equal Fin). lra. Qed.
Lemma mid_close L M (x y : @F (B64 L)) (a b : @F XR) : (0 <= M <= 2 ^ 960)%R -> close M 0 x a -> close M 0 y b ->
  close M (grain M) ((x +~ y) *~ (ofZ 1 /~ ofZ 2)) ((a +~ b) *~ (ofZ 1 /~ ofZ 2)).
Proof.
  intros HM Hx Hy. destruct (half_val L) as [Fh Vh]. rewrite half_xr. pose proof u_pos as Pu. pose proof (proj1 tiny_1) as T. destruct big_split as (B & B1 & EB & Hb). rewrite <- EB in HM.
  assert (U : (u <= / 1000)%R) by (unfold u; lra). assert (UM : (0 <= u * M)%R) by (apply Rmult_le_pos; lra). assert (UUM : (u * (u * M) <= / 1000 * (u * M))%R) by (apply Rmult_le_compat_r; lra).
  assert (UB : (u * M <= / 1000 * M)%R) by (apply Rmult_le_compat_r; lra).
  eapply close_le; [apply (@close_scale L _ (/ 2) _ _ _ _ Fh Vh ltac:(lra) (@close_add L _ _ _ _ _ _ _ _ Hx Hy ltac:(lra)))|..].
  - rewrite Hb. lra.
  - lra.
  - rewrite grain_u. lra.
Qed.
Theorem C106_AO (L : MathLib) (M : R) kl ke : (0 <= M <= 2 ^ 960)%R -> same_chart (L := L) M kl ke ->
  exists rf rx sf sx, rows_of I_AO tt kl = Ok rf /\ rows_of I_AO tt ke = Ok rx /\ sides_of I_AO tt kl = Ok sf /\ sides_of I_AO tt ke = Ok sx /\
    length rx = length kl /\ length sf = length kl /\ length sx = length kl /\
    let e := (45 * grain M)%R in let own := fun v : @F XR => v in
    rows_near (L := L) (fun v => v) own e rf rx /\
    forall i, clear own e rx i -> clear own e rx (pred i) -> nth_error sf i = nth_error sx i.
Proof.
  intros HM Hch. pose proof (ch_len Hch) as Le.
  destruct (@both_sidesN _ I_AO tt _ kl _ ltac:(in_all) ltac:(no_proj) eq_refl (AO_T kl) ltac:(apply tab_length)) as (sf & Ef & Lf).
  destruct (@both_sidesN _ I_AO tt _ ke _ ltac:(in_all) ltac:(no_proj) eq_refl (AO_T ke) ltac:(apply tab_length)) as (sx & Ex & Lx).
  assert (Rx : rows_of I_AO tt ke = Ok (tab (length kl) (fun i => mkRow (tm ke i) (aoF ke i)))) by (rewrite AO_T, Le; reflexivity).
  exists (tab (length kl) (fun i => mkRow (tm kl i) (aoF kl i))), (tab (length kl) (fun i => mkRow (tm ke i) (aoF ke i))), sf, sx.
  split; [apply AO_T|]. split; [exact Rx|]. split; [exact Ef|]. split; [exact Ex|]. split; [apply tab_length|]. split; [exact Lf|]. split; [congruence|]. intros e own.
  assert (Hm : forall i, (i < length kl)%nat -> close M (grain M) (medF kl i) (medF ke i)) by (intros i Hi; exact (mid_close HM (ch_low Hch Hi) (ch_high Hch Hi))).
  destruct (@period_grain 1 M ltac:(lia) (proj1 HM)) as (W & P1 & _). change (IZR (1 + 1)) with 2%R in P1. pose proof u_pos as Pu. pose proof (proj1 tiny_1) as T.
  assert (G : (grain M = M * (4 * u) + tiny)%R) by apply grain_u. set (w := grain M) in *. assert (UW : (0 <= u * w <= w / 1000)%R) by (split; [apply Rmult_le_pos; lra|]; replace (w / 1000)%R with (/ 1000 * w)%R by lra; apply Rmult_le_compat_r; [lra|unfold u; lra]).
  assert (D : forall i, (i < length kl)%nat -> close (2 * M) e (aoF kl i) (aoF ke i)).
  { intros i Hi. destruct (@ema_room 5 M w ltac:(lia) HM ltac:(lra)) as [R1 R2]. destruct (@ema_room 34 M w ltac:(lia) HM ltac:(lra)) as [R3 R4].
    pose proof (@close_ema L 5 _ M w _ _ ltac:(lia) R1 R2 Hm i Hi) as A5. pose proof (@close_ema L 34 _ M w _ _ ltac:(lia) R3 R4 Hm i Hi) as A34.
    apply close_le with (M' := M) (e' := (7 * w + w / 4)%R) in A5; [|lra|change (IZR (5 + 1)) with 6%R; lra]. apply close_le with (M' := M) (e' := (36 * w + w / 4)%R) in A34; [|lra|change (IZR (34 + 1)) with 35%R; lra].
    destruct big_split as (B & B1 & EB & Hb). rewrite <- EB in HM.
    eapply close_le; [apply (@close_sub L _ _ _ _ _ _ _ _ A5 A34); rewrite Hb; lra|lra|]. unfold e. lra. }
  split; [eapply tab_rows_near; exact D|]. intros i Ci Cp.
  assert (Z : forall j, (j < length kl)%nat -> clear own e (tab (length kl) (fun i => mkRow (tm ke i) (aoF ke i))) j -> zero_alike (aoF kl j) (aoF ke j)).
  { intros j Hj Hc. destruct (self_zero (Hm 0%nat ltac:(lia))) as [Y1 Y2]; [destruct big_split as (B & B1 & EB & Hb); rewrite <- EB in HM; rewrite Hb; lra|]. exact (@clear_zero L _ own _ e _ _ _ (aoF kl) j Hj D Y1 Y2 Hc). }
  eapply (@agree L I_AO I_AO tt tt); [apply C64_AO|apply C64_AO|unfold skips_first; cbn [In]; tauto|unfold skips_first; cbn [In]; tauto|no_proj|no_proj|exact Le|apply AO_T|exact Rx|exact Ef|exact Ex|exact Lf|congruence|].
  intros Hi. destruct (Z i ltac:(lia) Ci) as [Z1 Z2], (Z (pred i) ltac:(lia) Cp) as [Z3 Z4]. rewrite Z1, Z2, Z3, Z4. tauto.
Qed.

(** Macd: DIF, DEA and the histogram; the signal needs DIF and DEA away from zero and from each other. *)
Lemma alike_lt L (B : Type) (g h : B -> @F XR) M e M' e' n (t : nat -> Z) (b : nat -> B) (x y : nat -> @F (B64 L)) i : (i < n)%nat ->
  (forall i, (i < n)%nat -> close M e (x i) (g (b i))) -> (forall i, (i < n)%nat -> close M' e' (y i) (h (b i))) ->
  val (x 0%nat) = val (y 0%nat) -> g (b 0%nat) = h (b 0%nat) ->
  clear (fun v => g v -~ h v) (e + e') (tab n (fun i => mkRow (t i) (b i))) i -> (x i <~ y i) = (g (b i) <~ h (b i)) /\ (y i <~ x i) = (h (b i) <~ g (b i)).
Proof.
  intros Hi Hx Hy V0 E0 [->|(w & r & H & E & Hr)].
  - destruct (Hx _ Hi) as (s & Fx & Es & _), (Hy _ Hi) as (s' & Fy & Es' & _). rewrite E0 in *. rewrite Es'. cbn [flt B64 XR]. rewrite !lt_val, V0 by assumption. cbn.
    destruct (Rltb_spec (val (y 0%nat)) (val (y 0%nat))), (Rltb_spec s' s'); try lra; split; reflexivity.
  - apply tab_some in H as [_ ->]. cbn [rVal] in E. split; eapply close_lt; try exact (Hx i Hi); try exact (Hy i Hi); intros a c Ea Ec; rewrite Ea, Ec in E; injection E as <-; [exact Hr|].
    replace (a - c)%R with (- (c + - a))%R by ring. rewrite Rabs_Ropp. lra.
Qed.
Theorem C106_Macd (L : MathLib) (p : MacdP) (M : R) kl ke : 1 <= mShort p < 2 ^ 32 -> 1 <= mLong p < 2 ^ 32 -> 1 <= mSignal p < 2 ^ 32 -> (0 <= M <= 2 ^ 960)%R -> same_chart (L := L) M kl ke ->
  exists rf rx sf sx, rows_of I_Macd p kl = Ok rf /\ rows_of I_Macd p ke = Ok rx /\ sides_of I_Macd p kl = Ok sf /\ sides_of I_Macd p ke = Ok sx /\
    length rx = length kl /\ length sf = length kl /\ length sx = length kl /\
    let d := (IZR (mShort p + mLong p + 3) * grain M)%R in let a := (IZR (mShort p + mLong p + 3 * mSignal p + 6) * grain M)%R in
    rows_near (L := L) (fun v => mDIF v) (fun v => mDIF v) d rf rx /\ rows_near (L := L) (fun v => mDEA v) (fun v => mDEA v) a rf rx /\
    rows_near (L := L) (fun v => mMacd v) (fun v => mMacd v) (2 * (d + a) + 5 * grain M) rf rx /\
    let gap := fun v : MacdV (N := XR) => mDIF v -~ mDEA v in
    forall i, clear (fun v => mDIF v) d rx i -> clear (fun v => mDEA v) a rx i -> clear gap (d + a) rx i -> clear gap (d + a) rx (pred i) -> nth_error sf i = nth_error sx i.
Proof.
  intros H1 H2 H3 HM Hch. pose proof (ch_len Hch) as Le.
  destruct (@both_sidesN _ I_Macd p _ kl _ ltac:(in_all) ltac:(no_proj) eq_refl (Macd_T p kl) ltac:(apply tab_length)) as (sf & Ef & Lf).
  destruct (@both_sidesN _ I_Macd p _ ke _ ltac:(in_all) ltac:(no_proj) eq_refl (Macd_T p ke) ltac:(apply tab_length)) as (sx & Ex & Lx).
  set (gf := fun i => mkMacdV (difF p kl i) (emaF (mSignal p) (difF p kl) i) ((difF p kl i -~ emaF (mSignal p) (difF p kl) i) *~ ofZ 2)).
  set (gx := fun i => mkMacdV (difF p ke i) (emaF (mSignal p) (difF p ke) i) ((difF p ke i -~ emaF (mSignal p) (difF p ke) i) *~ ofZ 2)).
  assert (Rf : rows_of I_Macd p kl = Ok (tab (length kl) (fun i => mkRow (tm kl i) (gf i)))) by apply Macd_T.
  assert (Rx : rows_of I_Macd p ke = Ok (tab (length kl) (fun i => mkRow (tm ke i) (gx i)))) by (rewrite Macd_T, Le; reflexivity).
  exists (tab (length kl) (fun i => mkRow (tm kl i) (gf i))), (tab (length kl) (fun i => mkRow (tm ke i) (gx i))), sf, sx.
  split; [exact Rf|]. split; [exact Rx|]. split; [exact Ef|]. split; [exact Ex|]. split; [apply tab_length|]. split; [exact Lf|]. split; [congruence|]. intros d a.
  assert (D : forall i, (i < length kl)%nat -> close (2 * M) d (difF p kl i) (difF p ke i)) by (exact (dif_close Hch HM H1 H2)).
  destruct (@period_grain (mShort p) M H1 (proj1 HM)) as (W & P1 & P2). destruct (@period_grain (mLong p) M H2 (proj1 HM)) as (_ & Q1 & Q2). destruct (@period_grain (mSignal p) M H3 (proj1 HM)) as (_ & S1 & S2).
  destruct (@period_grain 1 M ltac:(lia) (proj1 HM)) as (_ & O1 & O2). change (IZR (1 + 1)) with 2%R in O1, O2. pose proof u_pos as Pu. pose proof (proj1 tiny_1) as T.
  assert (G : (grain M = M * (4 * u) + tiny)%R) by apply grain_u. set (w := grain M) in *.
  assert (Ed : d = (IZR (mShort p + 1) * w + IZR (mLong p + 1) * w + w)%R) by (unfold d; rewrite !plus_IZR; ring).
  assert (Ea : a = (d + 3 * (IZR (mSignal p + 1) * w))%R) by (unfold a, d; rewrite !plus_IZR, mult_IZR; ring).
  set (ws := (IZR (mSignal p + 1) * w)%R) in *. set (wf := (IZR (mShort p + 1) * w)%R) in *. set (wl := (IZR (mLong p + 1) * w)%R) in *.
  assert (PS : (0 <= wf /\ 0 <= wl /\ 0 <= ws)%R) by (unfold wf, wl, ws; repeat split; apply Rmult_le_pos; try lra; apply IZR_le; lia).
  assert (A : forall i, (i < length kl)%nat -> close (2 * M) a (emaF (mSignal p) (difF p kl) i) (emaF (mSignal p) (difF p ke) i)).
  { intros i Hi. destruct (@ema_room (mSignal p) M (M + d)%R H3 HM ltac:(lra)) as [R1 R2].
    eapply close_le; [apply (@close_ema L (mSignal p) _ (2 * M)%R d _ _ (proj1 H3) R1 ltac:(replace (2 * M + d)%R with (M + (M + d))%R by ring; exact R2) D i Hi)|lra|].
    rewrite Ea. apply Rplus_le_compat_l. unfold ws. rewrite (Rmult_comm 3), Rmult_assoc. apply Rmult_le_compat_l; [apply IZR_le; lia|].
    rewrite Ed. lra. }
  split; [eapply tab_rows_near; exact D|]. split; [eapply tab_rows_near; exact A|]. split.
  { eapply tab_rows_near with (M := (2 * (2 * M + 2 * M))%R). intros i Hi. cbn [mMacd gf gx]. destruct (@ofZ_val 2) as [F2 V2]; [cbn; lia|]. change (@ofZ XR 2) with (Fin 2 : @F XR).
    destruct big_split as (B & B1 & EB & Hb). rewrite <- EB in HM.
    eapply close_le; [apply (@close_scale L (b_ofZ 2) 2 _ _ _ _ F2 V2 ltac:(lra) (@close_sub' L _ _ _ _ _ _ _ _ (D i Hi) (A i Hi) ltac:(rewrite Hb; lra)))|lra|].
    - rewrite Hb. assert (u <= / 1000)%R by (unfold u; lra). assert (u * (2 * M + 2 * M + d + a) <= / 1000 * (2 * M + 2 * M + d + a))%R by (apply Rmult_le_compat_r; lra). lra.
    - set (q := (u * (2 * M + 2 * M + d + a))%R). assert (HQ : (0 <= q <= w + w / 10)%R).
      { unfold q. split; [apply Rmult_le_pos; lra|]. rewrite Ea, Ed. lra. }
      assert (UQ : (u * q <= / 1000 * q)%R) by (apply Rmult_le_compat_r; [lra|unfold u; lra]).
      replace (u * (2 * (2 * M + 2 * M + (d + a + q))))%R with (2 * q + 2 * (u * q))%R by (unfold q; ring). assert (0 <= M * u)%R by (apply Rmult_le_pos; lra). lra. }
  intros gap i C1 C2 C3 C4.
  destruct (Nat.lt_ge_cases 0 (length kl)) as [H0|H0]; [|rewrite !(proj2 (nth_error_None _ _)) by lia; reflexivity].
  destruct (self_zero (ch_close Hch H0) (price_room HM)) as [Y1 Y2].
  eapply (@agree L I_Macd I_Macd p p); [apply C64_Macd|apply C64_Macd|unfold skips_first; cbn [In]; tauto|unfold skips_first; cbn [In]; tauto|no_proj|no_proj|exact Le|exact Rf|exact Rx|exact Ef|exact Ex|exact Lf|congruence|].
  intros Hi. assert (Hj : (pred i < length kl)%nat) by lia.
  destruct (@clear_zero L _ (fun v => mDIF v) _ d _ (tm ke) gx (difF p kl) i (proj2 Hi) D Y1 Y2 C1) as [Z1 Z2].
  destruct (@clear_zero L _ (fun v => mDEA v) _ a _ (tm ke) gx (emaF (mSignal p) (difF p kl)) i (proj2 Hi) A Y1 Y2 C2) as [Z3 Z4].
  destruct (@alike_lt L _ (fun v => mDIF v) (fun v => mDEA v) _ d _ a _ (tm ke) gx (difF p kl) (emaF (mSignal p) (difF p kl)) i (proj2 Hi) D A eq_refl eq_refl C3) as [Z5 Z6].
  destruct (@alike_lt L _ (fun v => mDIF v) (fun v => mDEA v) _ d _ a _ (tm ke) gx (difF p kl) (emaF (mSignal p) (difF p kl)) (pred i) Hj D A eq_refl eq_refl C4) as [Z7 Z8].
  cbn [mDIF mDEA gf gx] in *. rewrite Z1, Z2, Z3, Z4, Z5, Z6, Z7, Z8. tauto.
Qed.

(** TraderXO, whose signals depend on all bars so far *)
Theorem C106_TraderXO (L : MathLib) (p : XOP) (M : R) kl ke : 1 <= xFastP p < 2 ^ 32 -> 1 <= xSlowP p < 2 ^ 32 -> (0 <= M <= 2 ^ 960)%R -> same_chart (L := L) M kl ke ->
  exists rf rx sf sx, rows_of I_TraderXO p kl = Ok rf /\ rows_of I_TraderXO p ke = Ok rx /\ sides_of I_TraderXO p kl = Ok sf /\ sides_of I_TraderXO p ke = Ok sx /\
    length rx = length kl /\ length sf = length kl /\ length sx = length kl /\
    let f := (IZR (xFastP p + 1) * grain M)%R in let s := (IZR (xSlowP p + 1) * grain M)%R in
    rows_near (L := L) (fun v => xFast v) (fun v => xFast v) f rf rx /\ rows_near (L := L) (fun v => xSlow v) (fun v => xSlow v) s rf rx /\
    forall i, (1 <= i)%nat -> (forall j, (j <= i)%nat -> clear (fun v : XOV (N := XR) => xFast v -~ xSlow v) (f + s) rx j) ->
      (nth_error sf i = Some Buy <-> nth_error sx i = Some Buy) /\ (nth_error sf i = Some Sell <-> nth_error sx i = Some Sell).
Proof.
  intros H1 H2 HM Hch. pose proof (ch_len Hch) as Le.
  destruct (@C64_TraderXO _ (B64_ord L) p kl) as (rf & sf & Ef & Sf & Lf & Qf). destruct (@C64_TraderXO _ XR_ord p ke) as (rx & sx & Ex & Sx & Lx & Qx).
  exists rf, rx, sf, sx. split; [exact Ef|]. split; [exact Ex|]. split; [exact Sf|]. split; [exact Sx|].
  rewrite TraderXO_T in Ef. rewrite TraderXO_T in Ex. injection Ef as <-. injection Ex as <-. rewrite Le in *. split; [apply tab_length|]. split; [exact Lf|]. split; [exact Lx|]. intros f s.
  set (gf := fun i => mkXOV (emaF (xFastP p) (C kl) i) (emaF (xSlowP p) (C kl) i)) in *. set (gx := fun i => mkXOV (emaF (xFastP p) (C ke) i) (emaF (xSlowP p) (C ke) i)) in *.
  pose proof (ema_close Hch HM H1) as A. pose proof (ema_close Hch HM H2) as B. fold f in A. fold s in B.
  split; [eapply tab_rows_near; exact A|]. split; [eapply tab_rows_near; exact B|]. intros i Hi Hc.
  set (abf := fun i => exists r, nth_error (tab (length kl) (fun i => mkRow (tm kl i) (gf i))) i = Some r /\ xSlow (rVal r) <~ xFast (rVal r) = true) in *.
  set (bef := fun i => exists r, nth_error (tab (length kl) (fun i => mkRow (tm kl i) (gf i))) i = Some r /\ xFast (rVal r) <~ xSlow (rVal r) = true) in *.
  set (abx := fun i => exists r, nth_error (tab (length kl) (fun i => mkRow (tm ke i) (gx i))) i = Some r /\ xSlow (rVal r) <~ xFast (rVal r) = true) in *.
  set (bex := fun i => exists r, nth_error (tab (length kl) (fun i => mkRow (tm ke i) (gx i))) i = Some r /\ xFast (rVal r) <~ xSlow (rVal r) = true) in *.
  assert (K : forall j, (j <= i)%nat -> (abf j <-> abx j) /\ (bef j <-> bex j)).
  { intros j Hj. unfold abf, abx, bef, bex. destruct (Nat.lt_ge_cases j (length kl)) as [Hl|Hl].
    - rewrite !tab_nth_error by exact Hl.
      destruct (@alike_lt L _ (fun v => xFast v) (fun v => xSlow v) _ f _ s _ (tm ke) gx (emaF (xFastP p) (C kl)) (emaF (xSlowP p) (C kl)) j Hl A B eq_refl eq_refl (Hc j Hj)) as [Z1 Z2]. cbn [xFast xSlow gx] in Z1, Z2.
      split; split; intros (r & E & Hr); injection E as <-; cbn [rVal xFast xSlow gf gx] in Hr; eexists; (split; [reflexivity|]); cbn [rVal xFast xSlow gf gx]; congruence.
    - rewrite !(proj2 (nth_error_None _ _)) by (rewrite tab_length; exact Hl). split; split; intros (r & E & _); discriminate E. }
  assert (FR : forall a b a' b' : nat -> Prop, (forall j, (j <= i)%nat -> (a j <-> a' j) /\ (b j <-> b' j)) -> fresh a b i -> fresh a' b' i).
  { intros a b a' b' Hq [F1 F2]. split; [now apply (Hq i (Nat.le_refl _))|]. intros j Hj Ha. destruct (F2 j Hj) as (k & Hk & Hb); [apply (Hq j); [lia|exact Ha]|]. exists k. split; [exact Hk|]. apply (Hq k); [lia|exact Hb]. }
  destruct (Qf i Hi) as [F1 F2], (Qx i Hi) as [X1 X2]. cbv zeta in *.
  split; [rewrite F1, X1|rewrite F2, X2]; split; apply FR; intros j Hj; destruct (K j Hj); tauto.
Qed.

(** DonchianChannel and KeltnerChannel: the price against the middle line *)
Definition off_middle (e : R) (ke : list (Candle (N := XR))) (rx : list (row (Band (N := XR)))) (i : nat) : Prop :=
  i = 0%nat \/ exists k w r s, nth_error ke i = Some k /\ nth_error rx i = Some w /\ cClose k = (Fin r : @F XR) /\ bMiddle (rVal w) = (Fin s : @F XR) /\ (e < Rabs (r - s))%R.
Lemma off_alike L M e (ke : list (Candle (N := XR))) n (t : nat -> Z) (b : nat -> Band (N := XR)) (x y : nat -> @F (B64 L)) i : (i < n)%nat ->
  (forall i, (i < n)%nat -> close M 0 (x i) (C ke i)) -> (forall i, (i < n)%nat -> close M e (y i) (bMiddle (b i))) ->
  val (x 0%nat) = val (y 0%nat) -> C ke 0%nat = bMiddle (b 0%nat) -> off_middle e ke (tab n (fun i => mkRow (t i) (b i))) i ->
  (x i <~ y i) = (C ke i <~ bMiddle (b i)) /\ (y i <~ x i) = (bMiddle (b i) <~ C ke i).
Proof.
  intros Hi Hx Hy V0 E0 [->|(k & w & r & s & Hk & Hw & Er & Es & Hr)].
  - destruct (Hx _ Hi) as (s & Fx & Es & _), (Hy _ Hi) as (s' & Fy & Es' & _). rewrite E0 in *. rewrite Es'. cbn [flt B64 XR]. rewrite !lt_val, V0 by assumption. cbn.
    destruct (Rltb_spec (val (y 0%nat)) (val (y 0%nat))), (Rltb_spec s' s'); try lra; split; reflexivity.
  - apply tab_some in Hw as [_ ->]. cbn [rVal] in Es. apply cn_some in Hk. subst k.
    split; eapply close_lt; try exact (Hx i Hi); try exact (Hy i Hi); intros a c Ea Ec; rewrite Ea in *; rewrite Ec in *; injection Er as <-; injection Es as <-; [lra|].
    replace (a - c)%R with (- (c - a))%R by ring. rewrite Rabs_Ropp. lra.
Qed.
Theorem C106_Keltner (L : MathLib) (p : Z) (M : R) kl ke : 1 <= p < 2 ^ 32 -> (0 <= M <= 2 ^ 960)%R -> same_chart (L := L) M kl ke ->
  exists rf rx sf sx, rows_of I_Keltner p kl = Ok rf /\ rows_of I_Keltner p ke = Ok rx /\ sides_of I_Keltner p kl = Ok sf /\ sides_of I_Keltner p ke = Ok sx /\
    length rx = length kl /\ length sf = length kl /\ length sx = length kl /\
    let e := (IZR (p + 1) * grain M)%R in
    rows_near (L := L) (fun v => bMiddle v) (fun v => bMiddle v) e rf rx /\
    forall i, off_middle e ke rx i -> off_middle e ke rx (pred i) -> nth_error sf i = nth_error sx i.
Proof.
  intros H1 HM Hch. pose proof (ch_len Hch) as Le.
  destruct (@both_sidesN _ I_Keltner p _ kl _ ltac:(in_all) ltac:(no_proj) eq_refl (Keltner_T p kl) ltac:(apply tab_length)) as (sf & Ef & Lf).
  destruct (@both_sidesN _ I_Keltner p _ ke _ ltac:(in_all) ltac:(no_proj) eq_refl (Keltner_T p ke) ltac:(apply tab_length)) as (sx & Ex & Lx).
  assert (Rx : rows_of I_Keltner p ke = Ok (tab (length kl) (fun i => mkRow (tm ke i) (keltF p ke i)))) by (rewrite Keltner_T, Le; reflexivity).
  exists (tab (length kl) (fun i => mkRow (tm kl i) (keltF p kl i))), (tab (length kl) (fun i => mkRow (tm ke i) (keltF p ke i))), sf, sx.
  split; [apply Keltner_T|]. split; [exact Rx|]. split; [exact Ef|]. split; [exact Ex|]. split; [apply tab_length|]. split; [exact Lf|]. split; [congruence|]. intros e.
  pose proof (ema_close Hch HM H1) as D. fold e in D. split; [eapply tab_rows_near; exact D|]. intros i Ci Cp.
  pose proof (ch_close Hch) as K.
  eapply (@agree L I_Keltner I_Keltner p p); [apply C64_Keltner|apply C64_Keltner|unfold skips_first; cbn [In]; tauto|unfold skips_first; cbn [In]; tauto|no_proj|no_proj|exact Le|apply Keltner_T|exact Rx|exact Ef|exact Ex|exact Lf|congruence|].
  intros Hi. assert (HP : (pred i < length kl)%nat) by lia. destruct (@off_alike L M e ke _ (tm ke) (keltF p ke) (C kl) (emaF p (C kl)) i (proj2 Hi) K D eq_refl eq_refl Ci) as [Z1 Z2].
  destruct (@off_alike L M e ke _ (tm ke) (keltF p ke) (C kl) (emaF p (C kl)) (pred i) HP K D eq_refl eq_refl Cp) as [Z3 Z4].
  cbn [bMiddle keltF] in *. rewrite Z1, Z2, Z3, Z4. tauto.
Qed.

(** Ema and EMAVegas: the rows *)
Theorem C106_Ema (L : MathLib) (p : Z) (M : R) kl ke : 1 <= p < 2 ^ 32 -> (0 <= M <= 2 ^ 960)%R -> same_chart (L := L) M kl ke ->
  exists rf rx, rows_of I_Ema p kl = Ok rf /\ rows_of I_Ema p ke = Ok rx /\ length rx = length kl /\ rows_near (L := L) (fun v => v) (fun v : @F XR => v) (IZR (p + 1) * grain M) rf rx.
Proof.
  intros Hp HM Hch. pose proof (ch_len Hch) as Le. exists (tab (length kl) (fun i => mkRow (tm kl i) (emaF p (C kl) i))), (tab (length kl) (fun i => mkRow (tm ke i) (emaF p (C ke) i))).
  split; [apply Ema_ind_T|]. split; [rewrite Ema_ind_T, Le; reflexivity|]. split; [apply tab_length|]. eapply tab_rows_near. exact (ema_close Hch HM Hp).
Qed.
Theorem C106_EMAVegas (L : MathLib) (p : VegasP) (M : R) kl ke : 1 <= vgP p < 2 ^ 32 -> 1 <= vgS1 p < 2 ^ 32 -> 1 <= vgS2 p < 2 ^ 32 -> 1 <= vgL1 p < 2 ^ 32 -> 1 <= vgL2 p < 2 ^ 32 -> (0 <= M <= 2 ^ 960)%R -> same_chart (L := L) M kl ke ->
  exists rf rx, rows_of I_EMAVegas p kl = Ok rf /\ rows_of I_EMAVegas p ke = Ok rx /\ length rx = length kl /\
    rows_near (L := L) (fun v => gV v) (fun v => gV v) (IZR (vgP p + 1) * grain M) rf rx /\
    rows_near (L := L) (fun v => gS1 v) (fun v => gS1 v) (IZR (vgS1 p + 1) * grain M) rf rx /\ rows_near (L := L) (fun v => gS2 v) (fun v => gS2 v) (IZR (vgS2 p + 1) * grain M) rf rx /\
    rows_near (L := L) (fun v => gL1 v) (fun v => gL1 v) (IZR (vgL1 p + 1) * grain M) rf rx /\ rows_near (L := L) (fun v => gL2 v) (fun v => gL2 v) (IZR (vgL2 p + 1) * grain M) rf rx.
Proof.
  intros H1 H2 H3 H4 H5 HM Hch. pose proof (ch_len Hch) as Le. exists (tab (length kl) (fun i => mkRow (tm kl i) (vegasF p kl i))), (tab (length kl) (fun i => mkRow (tm ke i) (vegasF p ke i))).
  split; [apply EMAVegas_T|]. split; [rewrite EMAVegas_T, Le; reflexivity|]. split; [apply tab_length|].
  split; [|split; [|split; [|split]]]; eapply tab_rows_near; cbn [gV gS1 gS2 gL1 gL2 vegasF]; (exact (ema_close Hch HM H1) || exact (ema_close Hch HM H2) || exact (ema_close Hch HM H3) || exact (ema_close Hch HM H4) || exact (ema_close Hch HM H5)).
Qed.

(** Without the distance the signals differ: on a market that stands still at 495.44 the float64 averages drift apart by one
    rounding and TraderXO buys; on the exact averages of the same chart it never trades. *)
Definition exact_of (L : MathLib) (k : Candle (N := B64 L)) : Candle (N := XR) :=
  mkCandle (N := XR) (Fin (val (cAmount k))) (cCount k) (Fin (val (cOpen k))) (Fin (val (cClose k))) (Fin (val (cLow k))) (Fin (val (cHigh k))) (Fin (val (cVolume k))) (Fin (val (cChange k))) (cBull k) (cTime k).
Lemma exact_same (L : MathLib) M kl : Forall (fun k : Candle (N := B64 L) => Forall (fun x => fin x /\ (Rabs (val x) <= M)%R) [cOpen k; cHigh k; cLow k; cClose k]) kl -> same_chart M kl (map (exact_of (L := L)) kl).
Proof.
  induction 1 as [|k kl H _ IH]; [constructor|]. constructor; [|exact IH]. repeat match goal with H : Forall _ (_ :: _) |- _ => inversion H; clear H; subst end.
  repeat match goal with H : fin _ /\ _ |- _ => destruct H end. split; [reflexivity|]. repeat split; eexists; (split; [split; [assumption|reflexivity]|]); (split; [reflexivity|assumption]).
Qed.
Theorem C106_distance_needed : exists (M : R) kl ke, (0 <= M <= 2 ^ 960)%R /\ same_chart (L := ex_lib) M kl ke /\
  sides_of I_TraderXO (mkXOP 12 25) kl = Ok [Hold; Buy; Hold] /\ sides_of I_TraderXO (mkXOP 12 25) ke = Ok [Hold; Hold; Hold].
Proof.
  set (x := b_lit 49544 100). assert (Fx : fin x) by (split; vm_compute; reflexivity).
  assert (Vx : (0 < val x <= 512)%R).
  { destruct (@ofZ_val 0) as [F0 V0]; [cbn; lia|]. destruct (@ofZ_val 512) as [F5 V5]; [cbn; lia|].
    assert (A : SFltb (b_ofZ 0) x = true) by (vm_compute; reflexivity). assert (B : SFltb x (b_ofZ 512) = true) by (vm_compute; reflexivity).
    rewrite lt_val, V0 in A by assumption. rewrite lt_val, V5 in B by assumption. destruct (Rltb_spec 0 (val x)), (Rltb_spec (val x) 512); try discriminate; lra. }
  exists 512%R, (at_rest x 3), (map (exact_of (L := ex_lib)) (at_rest x 3)).
  split; [split; [lra|]; apply Rle_trans with (2 ^ 9)%R; [cbn; lra|]; apply Rle_pow; [lra|lia]|]. split.
  { apply exact_same. unfold at_rest. apply Forall_forall. intros k Hk. apply repeat_spec in Hk. subst k. cbn [cOpen cHigh cLow cClose]. assert (AB : fin x /\ (Rabs (val x) <= 512)%R) by (split; [exact Fx|rewrite Rabs_pos_eq; lra]). exact (Forall_cons _ AB (Forall_cons _ AB (Forall_cons _ AB (Forall_cons _ AB (Forall_nil _))))). }
  split; [exact C99_TraderXO_float_refuted|].
  destruct (C99_TraderXO_signals (mkXOP 12 25) ltac:(cbn; lia) ltac:(cbn; lia)) with (c := val x) (kl := map (exact_of (L := ex_lib)) (at_rest x 3)) as (s & Es & Ls & Hs); [lra| |cbn; lia|].
  - unfold flat_market, at_rest. cbn [repeat map exact_of cOpen cHigh cLow cClose cVolume]. assert (V1 : (0 <= val (fz 1))%R).
    { destruct (@ofZ_val 1) as [F1 V1]; [cbn; lia|]. change (fz 1) with (b_ofZ 1). rewrite V1. lra. }
    repeat constructor; exists (val (fz 1)); split; [exact V1|reflexivity|exact V1|reflexivity|exact V1|reflexivity].
  - rewrite Es. f_equal. cbn [skipn] in Hs. rewrite Hs. reflexivity.
Qed.

(** The hypotheses are met: closes 10, 20, 10; the exact oscillator of periods 1 and 2 is 10/3 at the second bar, far beyond its 6 grains. *)
Example C106_hyp : exists kl ke rx, same_chart (L := ex_lib) 20 kl ke /\ length kl = 3%nat /\ rows_of I_APO (mkFS 1 2) ke = Ok rx /\ clear (fun v => v) (IZR (1 + 2 + 3) * grain 20) rx 1 /\ clear (fun v => v) (IZR (1 + 2 + 3) * grain 20) rx 0.
Proof.
  set (bar := fun z => mkCandle (N := EX) (fz 0) 0 (fz z) (fz z) (fz z) (fz z) (fz 1) (fz 0) false 60).
  assert (V : forall z, (Z.abs z <= 20) -> fin (b_ofZ z) /\ val (b_ofZ z) = IZR z) by (intros z Hz; apply ofZ_val; lia).
  exists [bar 10; bar 20; bar 10], (map (exact_of (L := ex_lib)) [bar 10; bar 20; bar 10]). eexists. split.
  { apply exact_same. assert (AB : forall z, 0 <= z <= 20 -> Forall (fun x => fin x /\ (Rabs (val x) <= 20)%R) [b_ofZ z; b_ofZ z; b_ofZ z; b_ofZ z]).
    { intros z Hz. assert (AB : fin (b_ofZ z) /\ (Rabs (val (b_ofZ z)) <= 20)%R) by (destruct (V z ltac:(lia)) as [A ->]; split; [exact A|]; rewrite Rabs_pos_eq; [apply IZR_le; lia|apply IZR_le; lia]). exact (Forall_cons _ AB (Forall_cons _ AB (Forall_cons _ AB (Forall_cons _ AB (Forall_nil _))))). }
    apply Forall_cons; [apply (AB 10); lia|]. apply Forall_cons; [apply (AB 20); lia|]. apply Forall_cons; [apply (AB 10); lia|]. apply Forall_nil. }
  split; [reflexivity|]. split; [apply APO_T|]. split; [right|left; reflexivity]. do 2 eexists. split; [apply tab_nth_error; cbn; lia|]. cbn [rVal]. split.
  - unfold apoF, emaF, cn. cbn [map nth exact_of bar cClose fsFast fsSlow]. change (fz 10) with (b_ofZ 10). change (fz 20) with (b_ofZ 20). rewrite !(proj2 (V 10 ltac:(lia))), !(proj2 (V 20 ltac:(lia))). cbn.
    destruct (Reqb_spec 2 0), (Reqb_spec 3 0); try lra. reflexivity.
  - match goal with |- (_ < Rabs ?r)%R => replace r with (10 / 3)%R by (cbn; field) end. rewrite Rabs_pos_eq by lra. rewrite grain_u. pose proof tiny_2. unfold u. change (IZR (1 + 2 + 3)) with 6%R. lra.
Qed.
Print Assumptions C106_APO.
Print Assumptions C106_AO.
Print Assumptions C106_Macd.
Print Assumptions C106_TraderXO.
Print Assumptions C106_Keltner.
Print Assumptions C106_Ema.
Print Assumptions C106_EMAVegas.
Print Assumptions C106_distance_needed.
