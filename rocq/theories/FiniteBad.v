(** * FiniteBad: when Williams %R, the vortex lines, the directional lines and the CCI are not finite. *)
From Coq Require Import Reals Lra ZArith Lia Bool List.
From Verif Require Import Base Num XReal XrMore SpecNum Order OrderMore FloatLaws Containers Ta TaTools TaAvg TaRange TaDev TaCci Regression Sides Klines KlineProofs3 RSum SpecTa SpecBar SpecInd2
  IndBase IndTrend IndChannel IndVolume IndOsc IndTools IndForms IndForms2 IndForms3 IndForms4 IndForms5 IndFormsSpec IndExact
  PropInd1 PropInd5 PropInd6 PropInd7 PropInd8 PropInd11 PropInd12 Finite FiniteInd SpecFinite.
Import ListNotations.
Set Implicit Arguments.
Unset Strict Implicit.
Open Scope Z_scope.
Local Notation X := (@F XR).

Lemma not_Fi (x : X) : x = NaN \/ x = PInf \/ x = NInf -> ~ Fi x.
Proof. intros [-> | [-> | ->]] (r & E); discriminate. Qed.
Lemma Fi_eq (x y : X) : x = y -> Fi y -> Fi x.
Proof. now intros ->. Qed.
Lemma div_Fi (a b : R) : Fi (@fdiv XR (Fin a) (Fin b)) <-> b <> 0%R.
Proof.
  split.
  - intros (r & E) ->. cbn in E. rewrite Reqb_refl in E. unfold inf_sgn in E. repeat destruct (Rltb _ _); discriminate.
  - intros H. exists (a / b)%R. now apply xr_div.
Qed.
Lemma div0_mul (a b : R) : ~ Fi (@fmul XR (@fdiv XR (Fin a) (Fin 0)) (Fin b)).
Proof.
  apply not_Fi. assert (I : forall c, inf_sgn c = NaN \/ inf_sgn c = PInf \/ inf_sgn c = NInf) by (intros c; unfold inf_sgn; repeat destruct (Rltb _ _); auto).
  change (@fdiv XR (Fin a) (Fin 0)) with (xdiv (Fin a) (Fin 0)). unfold xdiv. rewrite Reqb_refl.
  destruct (I a) as [-> | [-> | ->]]; [left; reflexivity|apply I|apply I].
Qed.
Lemma Rsum_zero l : (forall x, In x l -> (0 <= x)%R) -> (Rsum l = 0%R <-> forall x, In x l -> x = 0%R).
Proof.
  induction l as [|x l IH]; intros H; [split; [intros _ x []|reflexivity]|]. rewrite Rsum_cons.
  assert (N : (0 <= Rsum l)%R).
  { clear IH. assert (G : forall y, In y l -> (0 <= y)%R) by (intros; apply H; now right). clear H. induction l as [|y l IH]; [rewrite Rsum_nil; lra|].
    rewrite Rsum_cons. pose proof (G y (or_introl eq_refl)). pose proof (IH (fun z Hz => G z (or_intror Hz))). lra. }
  pose proof (H x (or_introl eq_refl)). specialize (IH (fun z Hz => H z (or_intror Hz))). split.
  - intros E y [<-|Hy]; [lra|]. apply IH; [lra|exact Hy].
  - intros E. rewrite (E x (or_introl eq_refl)), (proj2 IH); [lra|]. intros y Hy. apply E. now right.
Qed.

Lemma F2_firstn A B (R : A -> B -> Prop) n l l' : Forall2 R l l' -> Forall2 R (firstn n l) (firstn n l').
Proof. intros H. revert n. induction H; intros [|n]; cbn; constructor; auto. Qed.
Lemma F2_skipn A B (R : A -> B -> Prop) n l l' : Forall2 R l l' -> Forall2 R (skipn n l) (skipn n l').
Proof. intros H. revert n. induction H; intros [|n]; cbn; auto. Qed.
Lemma F2_iff A B (R : A -> B -> Prop) (P : A -> Prop) (Q : B -> Prop) l l' : Forall2 R l l' -> (forall a b, R a b -> (P a <-> Q b)) -> (Forall P l <-> Forall Q l').
Proof.
  intros H HR. induction H as [|a b l l' Hab H IH]; [split; constructor|]. specialize (HR a b Hab). split; intros G; inversion G; subst; constructor; tauto.
Qed.

Lemma ok_inj A (x y : A) : Ok x = Ok y -> x = y.
Proof. congruence. Qed.

Section Bad.
Variables (kl : list (Candle (N := XR))) (bs : list bar).
Hypothesis M : market kl bs.

Lemma m_cn i : (i < length kl)%nat -> is_bar (cn kl i) (nth i bs bar0) /\ well_formed (nth i bs bar0) /\ (0 < bL (nth i bs bar0))%R /\ nth_error bs i = Some (nth i bs bar0).
Proof.
  intros Hi. destruct M as (B & W & P). destruct (bars_cn B) as [L C]. rewrite L in Hi.
  assert (E : nth_error bs i = Some (nth i bs bar0)) by now apply nth_error_nth'.
  rewrite Forall_forall in W, P. pose proof (nth_error_In _ _ E). rewrite <- L in Hi. auto.
Qed.
Lemma m_len : length kl = length bs.
Proof. destruct M as (B & _). now destruct (bars_cn B). Qed.
Lemma m_col (f : Candle (N := XR) -> X) (g : bar -> R) : (forall c b, is_bar c b -> f c = Fin (g b)) -> map f kl = fins (map g bs).
Proof.
  intros H. destruct M as (B & _). clear M. induction B as [|c b kl' bs' Hb B' IH]; [reflexivity|]. unfold fins in *. cbn [map]. f_equal; [exact (H c b Hb)|exact IH].
Qed.

Lemma all_cn (P : Candle (N := XR) -> Prop) : (forall i, (i < length kl)%nat -> P (cn kl i)) -> Forall P kl.
Proof.
  intros H. apply Forall_forall. intros c Hc. apply In_nth_error in Hc as [j Hj]. assert (Lj : (j < length kl)%nat) by (apply nth_error_Some; congruence).
  apply cn_some in Hj as <-. now apply H.
Qed.

(** ** Williams %R *)
Lemma flat_bars p i : flat_window Exact p kl i <-> one_price (window bs i (Z.to_nat p)).
Proof.
  assert (W : Forall2 is_bar (window kl i (Z.to_nat p)) (window bs i (Z.to_nat p))).
  { destruct M as (B & _). unfold window. apply F2_skipn. now apply F2_firstn. }
  unfold flat_window, one_price. split; intros (q & H); exists q; revert H; apply (@F2_iff _ _ _ (fun c => number Exact (cHigh c) q /\ number Exact (cLow c) q) _ _ _ W);
    intros c b (_ & E1 & E2 & _); (split; intros [H1 H2]; [cbn in H1, H2; rewrite E1 in H1; rewrite E2 in H2; injection H1 as H1; injection H2 as H2; auto|cbn; rewrite E1, E2, H1, H2; auto]).
Qed.
Lemma Williams_bad p rows i r : 1 <= p -> rows_of (N := XR) I_Williams p kl = Ok rows -> nth_error rows i = Some r ->
  (Fi (rVal r) <-> ~ one_price (window bs i (Z.to_nat p))).
Proof.
  intros Hp E Hr. rewrite <- flat_bars. destruct (@C60_Williams Exact p kl Hp) as (rows' & E' & _ & H).
  { apply all_cn. intros j Lj. destruct (m_cn Lj) as ((E1 & E2 & E3 & E4 & E5) & (W1 & W2 & W3) & P & _).
    repeat split; try (eexists; split; [eassumption|exact I]). exists (bL (nth j bs bar0)), (bH (nth j bs bar0)), (bC (nth j bs bar0)). repeat split; auto; apply W2. }
  change (num Exact) with XR in *. rewrite E in E'. injection E' as <-. destruct (H i r Hr) as [H1 H2]. split.
  - intros (x & Ex) F. apply H2 in F. rewrite Ex in F. discriminate.
  - intros F. destruct (H1 F) as (x & Ex & _). now exists x.
Qed.

(** ** vortex *)
Definition tr_of (bs : list bar) (j : nat) : R :=
  let b := nth (S j) bs bar0 in let c := bC (nth j bs bar0) in Rmax (bH b - bL b) (Rmax (Rabs (bH b - c)) (Rabs (bL b - c))).
Lemma tr_nonneg j : (S j < length bs)%nat -> (0 <= tr_of bs j)%R /\ (tr_of bs j = 0%R <-> still bs (S j)).
Proof.
  intros Hj. rewrite <- m_len in Hj. destruct (m_cn Hj) as (_ & (_ & W & _) & _ & E). destruct (@m_cn j ltac:(lia)) as (_ & _ & _ & E').
  unfold tr_of. set (b := nth (S j) bs bar0) in *. set (b' := nth j bs bar0) in *. cbv zeta.
  pose proof (Rmax_l (bH b - bL b) (Rmax (Rabs (bH b - bC b')) (Rabs (bL b - bC b')))).
  pose proof (Rmax_r (bH b - bL b) (Rmax (Rabs (bH b - bC b')) (Rabs (bL b - bC b')))).
  pose proof (Rmax_l (Rabs (bH b - bC b')) (Rabs (bL b - bC b'))). pose proof (Rmax_r (Rabs (bH b - bC b')) (Rabs (bL b - bC b'))).
  pose proof (Rabs_pos (bH b - bC b')). pose proof (Rabs_pos (bL b - bC b')).
  assert (Z : forall x, Rabs x = 0%R -> x = 0%R) by (intros x Hx; destruct (Req_dec x 0) as [|Q]; [assumption|now apply Rabs_no_R0 in Q]).
  split; [lra|]. unfold still. replace (S j - 1)%nat with j by lia. split.
  - intros T. exists b', b. split; [exact E'|]. split; [exact E|]. pose proof (Z (bH b - bC b')%R ltac:(lra)). pose proof (Z (bL b - bC b')%R ltac:(lra)). lra.
  - intros (c' & c & F' & F & G1 & G2). rewrite E in F. rewrite E' in F'. injection F as <-. injection F' as <-. rewrite G1, G2.
    replace (bC b' - bC b')%R with 0%R by lra. rewrite Rabs_R0. rewrite (Rmax_left 0 0) by lra. apply Rmax_left. lra.
Qed.
Lemma true_ranges_T n : length bs = S n -> true_ranges (map bH bs) (map bL bs) (map bC bs) = tab n (tr_of bs).
Proof.
  intros L. unfold true_ranges.
  assert (T : forall g : bar -> R, map g bs = tab (S n) (fun i => g (nth i bs bar0))) by (intros g; rewrite <- L; symmetry; apply tab_map).
  rewrite !T, !tl_tab, combine_tab, pointwise_short. reflexivity.
Qed.
Lemma In_window_tab_iff A n (f : nat -> A) i p x : (i < n)%nat -> In x (window (tab n f) i p) <-> exists j, (j <= i)%nat /\ (i < j + p)%nat /\ x = f j.
Proof.
  intros Hi. rewrite (@window_tab _ (tab n f) i p (f 0%nat)) by (rewrite tab_length; exact Hi). split.
  - intros H. apply In_nth_error in H as [k Hk]. apply tab_some in Hk as [Hk ->]. eexists (_ : nat). split; [|split; [|apply tab_nth; lia]]; lia.
  - intros (j & H1 & H2 & ->). apply nth_error_In with (n := (j - (S i - Nat.min (S i) p))%nat). rewrite tab_nth_error by lia. f_equal.
    rewrite tab_nth by lia. f_equal. lia.
Qed.
Lemma Vortex_bad p rows i r : 1 <= p -> rows_of (N := XR) I_Vortex p kl = Ok rows -> nth_error rows i = Some r ->
  (Fis (vortex_nums (rVal r)) <-> ~ ((1 <= i)%nat /\ forall j, (1 <= j <= i)%nat -> Z.of_nat i - p < Z.of_nat j -> still bs j)).
Proof.
  intros Hp E Hr. pose proof (Z2Nat.id p ltac:(lia)) as Ep. set (q := Z.to_nat p) in *. rewrite <- Ep in E.
  destruct (@C77_exact q kl (map bH bs) (map bL bs) (map bC bs)) as (rows' & E' & Len & H0 & HS); try lia.
  { apply m_col. intros c b Hb. apply Hb. } { apply m_col. intros c b Hb. apply Hb. } { apply m_col. intros c b Hb. apply Hb. }
  rewrite E in E'. injection E' as <-. assert (Li : (i < length kl)%nat) by (rewrite <- Len; apply nth_error_Some; intros Q; pose proof (eq_trans (eq_sym Hr) Q); discriminate).
  destruct i as [|i].
  { destruct (H0 r Hr) as [E1 E2]. split; [intros _ [Q _]; lia|]. intros _. unfold vortex_nums. repeat (constructor; [eexists; eassumption|]). constructor. }
  destruct (HS i r Hr) as [E1 E2]. cbv zeta in E1, E2. rewrite m_len in Li. destruct (length bs) as [|n] eqn:Lb; [lia|].
  rewrite (@true_ranges_T n Lb) in E1, E2.
  assert (S0 : Rsum (window (tab n (tr_of bs)) i q) = 0%R <-> forall j, (1 <= j <= S i)%nat -> Z.of_nat (S i) - p < Z.of_nat j -> still bs j).
  { rewrite Rsum_zero.
    - split.
      + intros H j Hj Hw. destruct j as [|j]; [lia|]. apply (@tr_nonneg j); [lia|]. apply H. apply In_window_tab_iff; [lia|]. exists j. repeat split; lia.
      + intros H x Hx. apply In_window_tab_iff in Hx as (j & J1 & J2 & ->); [|lia]. apply (@tr_nonneg j); [lia|]. apply H; lia.
    - intros x Hx. apply In_window_tab_iff in Hx as (j & J1 & J2 & ->); [|lia]. apply (@tr_nonneg j). lia. }
  unfold vortex_nums. split.
  - intros F [_ A]. apply S0 in A. inversion F as [|? ? F1 _]. rewrite E1 in F1. apply div_Fi in F1. contradiction.
  - intros A. assert (Q : Rsum (window (tab n (tr_of bs)) i q) <> 0%R) by (intros Z; apply A; split; [lia|]; now apply S0).
    repeat (constructor; [eapply Fi_eq; [eassumption|now apply div_Fi]|]). constructor.
Qed.

(** ** directional lines *)
Lemma m_formed : Forall formed kl.
Proof.
  apply all_cn. intros j Lj. destruct (m_cn Lj) as ((E1 & E2 & E3 & E4 & E5) & (W1 & W2 & W3) & _). red. do 3 eexists. repeat (split; [eassumption|]). exact W2.
Qed.
Lemma tr3_of j : (S j < length kl)%nat -> tr3F (N := XR) kl (S j) = Fin (tr_of bs j).
Proof.
  intros Hj. destruct (m_cn Hj) as ((_ & E1 & E2 & E3 & _) & _). destruct (@m_cn j ltac:(lia)) as ((_ & F1 & F2 & F3 & _) & _).
  cbn [tr3F]. rewrite E1, E2, F3, !xr_sub, !xr_abs, !xr_max. reflexivity.
Qed.
Lemma smooth_zero len i : 1 <= len -> (i < length kl)%nat -> exists t, smoothF (N := XR) len (tr3F kl) i = Fin t /\ (0 <= t)%R /\
  (t = 0%R <-> forall j, (1 <= j <= i)%nat -> (len = 1 -> j = i) -> still bs j).
Proof.
  intros Hl. assert (Hz : (1 <= IZR len)%R) by (apply IZR_le; exact Hl).
  assert (Hq : (0 < / IZR len)%R) by (apply Rinv_0_lt_compat; lra).
  induction i as [|i IH]; intros Hi.
  { exists 0%R. split; [reflexivity|]. split; [lra|]. split; [intros; lia|reflexivity]. }
  destruct IH as (t & Et & T0 & TZ); [lia|]. cbn [smoothF]. rewrite Et, tr3_of by exact Hi.
  exists (t - t / IZR len + tr_of bs i)%R. split; [rewrite xr_ofZ, xr_div, xr_sub, xr_add by lra; reflexivity|].
  destruct (@tr_nonneg i) as [R0 RZ]; [rewrite <- m_len; exact Hi|]. unfold Rdiv.
  destruct (Z.eq_dec len 1) as [->|Hn].
  - rewrite Rinv_1. replace (t - t * 1 + tr_of bs i)%R with (tr_of bs i) by lra. split; [exact R0|]. rewrite RZ. split.
    + intros S j Hj E. rewrite (E eq_refl). exact S.
    + intros H. apply H; [lia|reflexivity].
  - assert (Q : (/ IZR len <= / 2)%R) by (apply Rinv_le_contravar; [lra|apply IZR_le; lia]).
    assert (P1 : (0 <= t - t * / IZR len)%R) by nra. assert (P2 : (t - t * / IZR len = 0 -> t = 0)%R) by (intros; nra). split; [lra|]. split.
    + intros E j Hj _. destruct (Nat.eq_dec j (S i)) as [->|]; [apply RZ; lra|]. apply TZ; [apply P2; lra|lia|contradiction].
    + intros H. assert (t = 0%R) as -> by (apply TZ; intros j Hj _; apply H; [lia|contradiction]).
      assert (tr_of bs i = 0%R) as -> by (apply RZ, H; [lia|contradiction]). lra.
Qed.
Lemma adx_line_fi p i : 1 <= axPeriod p -> 1 <= axLen p -> (i < length kl)%nat ->
  Fi (smaF (N := XR) (Z.to_nat (axLen p)) (fun j => snd (diF (axPeriod p) (axLen p) kl j)) i).
Proof.
  intros Hp Hl Hi. set (f := fun j => snd (diF (N := XR) (axPeriod p) (axLen p) kl j)).
  assert (C : forall k, (k <= i)%nat -> (exists j, (j <= k)%nat /\ f j = NaN) \/ forall j, (j <= k)%nat -> f j = Fin (match f j with Fin x => x | _ => 0%R end)).
  { induction k as [|k IH]; intros Hk.
    - destruct (@dx_cases p kl m_formed Hl 0%nat ltac:(lia)) as [Q|(x & Q & _)]; [left; exists 0%nat; auto|right].
      intros j Hj. replace j with 0%nat by lia. fold f in Q. unfold f. rewrite Q. reflexivity.
    - destruct IH as [(j & Hj & Ej)|IH]; [lia|left; exists j; split; [lia|exact Ej]|].
      destruct (@dx_cases p kl m_formed Hl (S k) ltac:(lia)) as [Q|(x & Q & _)]; [left; exists (S k); auto|right].
      intros j Hj. destruct (Nat.eq_dec j (S k)) as [->|]; [unfold f; rewrite Q; reflexivity|apply IH; lia]. }
  destruct (C i ltac:(lia)) as [(j & Hj & Ej)|H].
  - unfold smaF. rewrite (@runF_nan _ f j (S i)) by (lia || exact Ej). now exists 0%R.
  - rewrite (@smaF_exact (Z.to_nat (axLen p)) f (fun j => match f j with Fin x => x | _ => 0%R end) (S i) i); [eexists; reflexivity|lia|lia|]. intros j Hj. apply H. lia.
Qed.
Lemma ADX_bad p rows i r : 1 <= axPeriod p -> 1 <= axLen p -> rows_of (N := XR) I_ADX p kl = Ok rows -> nth_error rows i = Some r ->
  (Fis (adx_nums (rVal r)) <-> ~ (axPeriod p - 1 <= Z.of_nat i /\ forall j, (1 <= j <= i)%nat -> (axLen p = 1 -> j = i) -> still bs j)).
Proof.
  intros Hp Hl E Hr. rewrite (@ADX_T XR) in E by lia. injection E as <-. apply tab_some in Hr as [Hi ->]. cbn [rVal]. unfold adx_nums, adxF. cbn [axPlus axMinus axADX].
  pose proof (adx_line_fi Hp Hl Hi) as F3. set (x3 := smaF _ _ _) in *. clearbody x3. unfold diF.
  destruct (Nat.ltb_spec i (Z.to_nat (axPeriod p - 1))) as [Hip|Hip].
  { split; [intros _ [Q _]; lia|]. intros _. constructor; [now exists 0%R|]. constructor; [now exists 0%R|]. constructor; [exact F3|constructor]. }
  destruct (@smooth_parts p kl m_formed Hl i Hi) as (a & b & t & u & d & q & Ea & Eb & Et & _).
  destruct (@smooth_zero (axLen p) i Hl Hi) as (t' & Et' & _ & TZ). rewrite Et in Et'. injection Et' as <-.
  rewrite Ea, Eb, Et. unfold adx_di. cbn [fst snd]. split.
  - intros F [_ A]. apply TZ in A. subst t. apply (@Forall_inv _ Fi) in F. exact (div0_mul (a := a) (b := 100) F).
  - intros A. assert (Q : t <> 0%R) by (intros Z; apply A; split; [lia|now apply TZ]).
    constructor; [apply Fi_mul; [now apply div_Fi|apply Fi_ofZ]|]. constructor; [apply Fi_mul; [now apply div_Fi|apply Fi_ofZ]|]. constructor; [exact F3|constructor].
Qed.

(** ** CCI *)
Lemma Cci_bad p rows i r : 1 <= cciPeriod p -> 1 <= cciSma p -> rows_of (N := XR) I_Cci p kl = Ok rows -> nth_error rows i = Some r ->
  (Fi (rVal r) <-> ~ (cciPeriod p - 1 <= Z.of_nat i /\
     forall b, In b (window bs i (Z.to_nat (cciPeriod p))) -> typical b = mean (window (map typical bs) i (Z.to_nat (cciSma p))))).
Proof.
  intros Hp Hq E Hr. destruct (@C79_objects XR p 1 (ofZ 0) kl) as [E1 _]. rewrite E in E1. cbn [rmap] in E1.
  assert (TP : map (typical_price (N := XR)) kl = fins (map typical bs)).
  { apply m_col. intros c b (_ & F1 & F2 & F3 & _). unfold typical_price. rewrite F1, F2, F3, !xr_add, xr_ofZ, xr_div by lra. reflexivity. }
  rewrite TP in E1. set (xs := map typical bs) in *.
  pose proof (Z2Nat.id (cciPeriod p) ltac:(lia)) as Ep. pose proof (Z2Nat.id (cciSma p) ltac:(lia)) as Eq. set (n := Z.to_nat (cciPeriod p)) in *. set (m := Z.to_nat (cciSma p)) in *.
  rewrite <- Ep, <- Eq, CCI_gen in E1 by lia. apply ok_inj in E1. rewrite fins_length in E1.
  assert (Hv : nth_error (column (fun v => v) rows) i = Some (rVal r)) by (unfold column; rewrite nth_error_map; now rewrite Hr).
  apply (f_equal (fun l => nth_error l i)) in E1. pose proof (eq_trans (eq_sym E1) Hv) as Hw. clear E1 Hv. apply tab_some in Hw as [Hi Hv]. rewrite <- Ep. unfold warm in Hv. apply (@iff_trans _ _ _ (conj (Fi_eq (eq_sym Hv)) (Fi_eq Hv))). clear Hv.
  destruct (Nat.ltb_spec (S i) n) as [H|H].
  { split; [intros _ [Q _]; lia|]. intros _. now exists 0%R. }
  assert (Hs : sma_out (N := XR) m (fins xs) i = Fin (mean (window xs i m))).
  { pose proof (@Sma_exact m xs ltac:(lia)) as S0. rewrite Sma_gen in S0. injection S0 as S0.
    apply (f_equal (fun l => nth i l (Fin 0))) in S0. rewrite fins_length in S0. rewrite !tab_nth in S0 by exact Hi. exact S0. }
  rewrite fins_nth0, Hs. unfold md_at. rewrite tab_nth by exact Hi. rewrite Hs, fins_window, xr_zero, fold_abs_fins, Rplus_0_l, xr_ofZ.
  assert (In0 : (0 < IZR (Z.of_nat n))%R) by (apply IZR_lt; lia).
  rewrite xr_div by lra. change (@lit XR 15 1000) with (Fin (15 / 1000)). rewrite xr_mul, xr_sub, div_Fi.
  set (mu := mean (window xs i m)). set (w := window xs i n).
  assert (S0 : Rsum (map (fun x => Rabs (x - mu)) w) = 0%R <-> forall x, In x w -> x = mu).
  { rewrite Rsum_zero.
    - split.
      + intros G x Hx. specialize (G (Rabs (x - mu)) ltac:(apply in_map_iff; eauto)). destruct (Req_dec (x - mu) 0) as [|Q]; [lra|]. now apply Rabs_no_R0 in Q.
      + intros G y Hy. apply in_map_iff in Hy as (x & <- & Hx). rewrite (G x Hx). replace (mu - mu)%R with 0%R by lra. apply Rabs_R0.
    - intros y Hy. apply in_map_iff in Hy as (x & <- & _). apply Rabs_pos. }
  assert (W : (forall x, In x w -> x = mu) <-> forall b, In b (window bs i n) -> typical b = mu).
  { unfold w, xs. rewrite window_map. split.
    - intros G b Hb. apply G. now apply in_map.
    - intros G x Hx. apply in_map_iff in Hx as (b & <- & Hb). now apply G. }
  rewrite <- W, <- S0. set (s := Rsum _). assert (Z : (15 / 1000 * (s / IZR (Z.of_nat n)) = 0 <-> s = 0)%R).
  { split; [|intros ->; unfold Rdiv; lra]. intros Q. apply (f_equal (fun z => z * (1000 / 15) * IZR (Z.of_nat n))%R) in Q. field_simplify in Q; lra. }
  rewrite Z. split; [intros Q [_ A]; contradiction|]. intros Q A. apply Q. split; [lia|exact A].
Qed.
End Bad.
