(** * PropMirror3: property C98, continued: least squares, signals, and what is not symmetric. *)
From Coq Require Import Reals Lra ZArith Lia Bool List PeanoNat Classical_Prop.
From Verif Require Import Base Num XReal Order OrderMore FloatLaws FloatOrder FloatBounds SpecNum B64 Lits Containers Ta TaTools TaAvg TaRange TaStat SpecTa Sides Klines RSum XrMore
  IndBase IndTrend IndChannel IndOsc IndVolume IndAll IndTools IndForms IndForms2 IndForms3 IndForms4 IndForms5 IndFormsSpec IndMachines IndBounds IndBounds2 IndExact TaDev TaReg SpecInd SpecInd2 SpecBar SpecMemory SpecMirror
  IndLife CrashSides PropInd1 PropInd2 PropInd5 PropInd6 PropInd7 PropInd8 PropInd9 PropInd11 PropInd12 PropMemory PropMemory2 ShiftTools PropShift MirrorTools PropMirror PropMirror2.
Import ListNotations.
Set Implicit Arguments.
Open Scope Z_scope.
Local Notation C kl := (fun i => cClose (cn kl i)).
Local Notation rows kl g := (Ok (tab (length kl) (fun i => mkRow (tm kl i) (g i)))).
Local Notation kline := (list (Candle (N := XR))).
Local Notation same_level := (fun c : R => c).

(** ** Least-squares candles *)
Lemma sse_turn b m c l : sse (c - b) (- m) (points (map (fun x => c - x)%R l)) = sse b m (points l).
Proof.
  unfold sse, points. rewrite map_length. generalize (map INR (seq 0 (length l))) as ts. intros ts. f_equal. revert l. induction ts as [|t ts IH]; intros [|x l]; cbn; try reflexivity. rewrite IH. f_equal. lra.
Qed.
Lemma ls_turn b m c l : least_squares b m (points l) -> least_squares (c - b) (- m) (points (map (fun x => c - x)%R l)).
Proof.
  intros [H1 H2]. split.
  - intros b' m'. rewrite sse_turn. replace b' with (c - (c - b'))%R by lra. replace m' with (- - m')%R by lra. rewrite sse_turn. apply H1.
  - intros b' m'. rewrite sse_turn. replace b' with (c - (c - b'))%R at 1 by lra. replace m' with (- - m')%R at 1 by lra. rewrite sse_turn. intros Hs. destruct (H2 _ _ Hs) as [Hb Hm]. split; lra.
Qed.
Lemma turn_rows A (f g : A -> @F XR) (r r' : list (row A)) k a n : length r = n -> length r' = n ->
  (forall i x x', (k <= i)%nat -> nth_error r i = Some x -> nth_error r' i = Some x' -> nrel a (f (rVal x)) (g (rVal x'))) ->
  skipn k (column g r') = map (fun x => (Fin a : @F XR) -~ x) (skipn k (column f r)).
Proof.
  intros Lr Lr' Hx. apply list_ext. intros i. rewrite nth_error_map, !nth_error_skipn. unfold column. rewrite !nth_error_map.
  destruct (Nat.lt_ge_cases (k + i) n) as [Hi|Hi]; [|now rewrite !(proj2 (nth_error_None _ _)) by lia].
  destruct (nth_error r (k + i)) as [x|] eqn:Ex; [|apply nth_error_None in Ex; lia]. destruct (nth_error r' (k + i)) as [x'|] eqn:Ex'; [|apply nth_error_None in Ex'; lia]. cbn [option_map]. f_equal.
  apply nrel_flip. exact (Hx (k + i)%nat x x' ltac:(lia) Ex Ex').
Qed.
Theorem C98_LinearRegCandles (p : nat) s : (2 <= p)%nat -> let P := mkLrcP s (Z.of_nat p) false in
  mirrors I_LRC P (fun v => lcOpen v) (fun v => lcOpen v) same_level p /\ mirrors I_LRC P (fun v => lcHigh v) (fun v => lcLow v) same_level p /\
  mirrors I_LRC P (fun v => lcLow v) (fun v => lcHigh v) same_level p /\ mirrors I_LRC P (fun v => lcClose v) (fun v => lcClose v) same_level p.
Proof.
  intros H2 P.
  set (HI := fun (f : LrcV (N := XR) -> @F XR) (q : Candle (N := XR) -> @F XR) => forall kl, real_candles kl -> (p <= length kl)%nat -> forall r : list (row (LrcV (N := XR))), rows_of I_LRC P kl = Ok r -> length r = length kl /\
       forall i x, nth_error r i = Some x -> (p <= S i)%nat -> exists b m, least_squares b m (points (window (nums q kl) i p)) /\ f (rVal x) = Fin (b + m * (INR p - 1))).
  assert (K : forall kl, real_candles kl -> (p <= length kl)%nat -> _) by (intros kl Hr Hk; exact (@C81_exact p s kl (nums (fun c => cOpen c) kl) (nums (fun c => cHigh c) kl) (nums (fun c => cLow c) kl) (nums (fun c => cClose c) kl) H2 Hk
     (nums_fins _ Hr (fun c b H => ex_intro _ _ (proj1 H))) (nums_fins _ Hr bar_high) (nums_fins _ Hr bar_low) (nums_fins _ Hr bar_close))).
  assert (G : forall (f g : LrcV (N := XR) -> @F XR) (q q' : Candle (N := XR) -> @F XR), (forall k b, is_bar k b -> exists r, q k = Fin r) -> (forall c k b, is_bar k b -> q' (mirrored c k) = (Fin c : @F XR) -~ q k) ->
    HI f q -> HI g q' -> mirrors I_LRC P f g same_level p).
  { intros f g q q' Hq Hs HI1 HI2 c kl Hr Hk. destruct (K kl Hr Hk) as (r & E & _). destruct (K (map (mirrored c) kl) (mir_real c Hr)) as (r' & E' & _); [now rewrite map_length|].
    destruct (HI1 kl Hr Hk r E) as [Lr Q]. destruct (HI2 (map (mirrored c) kl) (mir_real c Hr) ltac:(now rewrite map_length) r' E') as [Lr' Q'].
    exists r, r'. split; [exact E|]. split; [exact E'|]. split; [exact Lr|]. rewrite map_length in Lr'.
    refine (@turn_rows _ f g r r' (p - 1) c (length kl) Lr Lr' _). intros i x x' Hi Ex Ex'.
    destruct (Q _ _ Ex ltac:(lia)) as (b & m & LS & ->), (Q' _ _ Ex' ltac:(lia)) as (b' & m' & LS' & ->).
    rewrite (@nums_turn c q q' kl Hq (Hs c) Hr), window_map in LS'. destruct (proj2 LS' (c - b)%R (- m)%R (proj1 (@ls_turn _ _ c _ LS) b' m')) as [<- <-]. eexists. split; [reflexivity|]. f_equal. lra. }
  assert (BO : forall k b, is_bar k b -> exists r, cOpen k = Fin r) by (intros k b Hb; exact (ex_intro _ _ (proj1 Hb))).
  repeat apply conj; [apply G with (q := fun k => cOpen k) (q' := fun k => cOpen k)|apply G with (q := fun k => cHigh k) (q' := fun k => cLow k)|apply G with (q := fun k => cLow k) (q' := fun k => cHigh k)|apply G with (q := fun k => cClose k) (q' := fun k => cClose k)];
  try apply bar_high; try apply bar_low; try apply bar_close; try exact BO; try reflexivity;
  (intros kl Hr Hk r E; destruct (K kl Hr Hk) as (r0 & E0 & Lr & Q); unfold P in E; rewrite E0 in E; injection E as <-; split; [exact Lr|]; intros i x Hx Hi; specialize (Q i x Hx); cbn zeta in Q; destruct (Nat.ltb_spec (S i) p); [lia|]; tauto).
Qed.

(** ** Signals *)
Lemma skip_opp n (s s' : list Side) : length s = length s' -> (forall i x x', (n <= i)%nat -> nth_error s i = Some x -> nth_error s' i = Some x' -> x' = opposite x) ->
  skipn n s' = map opposite (skipn n s).
Proof.
  intros Ln Hx. apply list_ext. intros i. rewrite nth_error_map, !nth_error_skipn.
  destruct (nth_error s (n + i)) as [x|] eqn:Ex.
  - destruct (nth_error s' (n + i)) as [x'|] eqn:Ex'; [cbn; f_equal; exact (Hx (n + i)%nat x x' ltac:(lia) Ex Ex')|]. apply nth_error_None in Ex'. assert (nth_error s (n + i) <> None) by congruence. apply nth_error_Some in H. lia.
  - apply nth_error_None in Ex. rewrite (proj2 (nth_error_None _ _)) by lia. reflexivity.
Qed.
Lemma signal_swap (B S B' S' : Prop) (x x' : Side) : (B -> S -> False) -> (B' <-> S) -> (S' <-> B) -> signal B S x -> signal B' S' x' -> x' = opposite x.
Proof.
  intros X E1 E2 (A1 & A2 & A3) (A1' & A2' & A3').
  destruct (classic B) as [HB|HB].
  - rewrite (A1 HB). assert (~ B') by (rewrite E1; tauto). rewrite (A2' H (proj2 E2 HB)). reflexivity.
  - destruct (classic S) as [HS|HS].
    + rewrite (A2 HB HS), (A1' (proj2 E1 HS)). reflexivity.
    + rewrite (A3 HB HS), A3'; [reflexivity|tauto|tauto].
Qed.
Lemma both_sides (I : Indicator (N := XR)) p f kl d : In I append_style \/ In I make_style -> (forall n, counts I n) -> Sides I = Some f -> rows_of I p kl = Ok d -> length d = length kl ->
  exists s, sides_of I p kl = Ok s /\ length s = length kl.
Proof.
  intros HI Hc Hf Hd Ld. assert (HA : In I all_indicators) by (unfold all_indicators; rewrite !in_app_iff; tauto). destruct (@sides_total XR I HA f p kl d Hf Hd Ld) as (s & Es).
  assert (E : sides_of I p kl = Ok s). { unfold sides_of, AnalysisSide. rewrite Hf. fold (rows_of I p kl). rewrite Hd. cbn [bind]. rewrite Es. reflexivity. }
  exists s. split; [exact E|]. eapply C40_sides; [|apply Hc|exact E]. exact HI.
Qed.
Lemma nth_cn (kl : kline) i k : nth_error kl i = Some k -> k = cn kl i.
Proof. intros E. unfold cn. symmetry. now apply nth_error_nth. Qed.
Lemma opp_at (I : Indicator (N := XR)) (p : Param I) f B S c kl r r' : In I append_style \/ In I make_style -> (forall n, counts I n) -> Sides I = Some f -> follows I p 1 B S ->
  rows_of I p kl = Ok r -> rows_of I p (map (mirrored c) kl) = Ok r' -> length r = length kl -> length r' = length kl ->
  (forall k k' v w, B k k' v w -> S k k' v w -> False) ->
  (forall i j x y x' y', nth_error r i = Some x -> nth_error r j = Some y -> nth_error r' i = Some x' -> nth_error r' j = Some y' -> forall k k', nth_error kl i = Some k -> nth_error kl j = Some k' ->
     (B (mirrored c k) (mirrored c k') (rVal x') (rVal y') <-> S k k' (rVal x) (rVal y)) /\ (S (mirrored c k) (mirrored c k') (rVal x') (rVal y') <-> B k k' (rVal x) (rVal y))) ->
  exists s s', sides_of I p kl = Ok s /\ sides_of I p (map (mirrored c) kl) = Ok s' /\ length s = length kl /\ skipn 1 s' = map opposite (skipn 1 s).
Proof.
  intros HI Hc Hf HF E E' Lr Lr' X HR. destruct (@both_sides I p f kl r HI Hc Hf E Lr) as (s & Es & Ls). destruct (@both_sides I p f _ r' HI Hc Hf E' ltac:(now rewrite map_length)) as (s' & Es' & Ls'). rewrite map_length in Ls'.
  exists s, s'. split; [exact Es|]. split; [exact Es'|]. split; [exact Ls|]. apply skip_opp; [congruence|]. intros i x x' Hi Hx Hx'.
  assert (Li : (i < length kl)%nat) by (rewrite <- Ls; apply nth_error_Some; congruence).
  assert (N : forall A (l : list A) j, (j < length l)%nat -> exists a, nth_error l j = Some a) by (intros A l j Hj; destruct (nth_error l j) eqn:Q; [eauto|apply nth_error_None in Q; lia]).
  destruct (N _ kl i Li) as (k & K1), (N _ kl (pred i) ltac:(lia)) as (k' & K2), (N _ r i ltac:(lia)) as (v & V1), (N _ r (pred i) ltac:(lia)) as (w & V2), (N _ r' i ltac:(lia)) as (v' & V3), (N _ r' (pred i) ltac:(lia)) as (w' & V4).
  assert (K3 : nth_error (map (mirrored c) kl) i = Some (mirrored c k)) by (now rewrite nth_error_map, K1). assert (K4 : nth_error (map (mirrored c) kl) (pred i) = Some (mirrored c k')) by (now rewrite nth_error_map, K2).
  destruct (HR i (pred i) v w v' w' V1 V2 V3 V4 k k' K1 K2) as [R1 R2].
  exact (signal_swap (X _ _ _ _) R1 R2 (HF kl r s E Es i k k' v w x ltac:(lia) Hi K1 K2 V1 V2 Hx) (HF _ r' s' E' Es' i _ _ v' w' x' ltac:(lia) Hi K3 K4 V3 V4 Hx')).
Qed.

Lemma flip_lt a (x y : @F XR) : (flip a x <~ flip a y) = (y <~ x).
Proof. destruct x as [u| | |], y as [v| | |]; unfold flip; cbn; try reflexivity. destruct (Rltb_spec (a + - u) (a + - v)), (Rltb_spec v u); lra || reflexivity. Qed.
Lemma flip_Z a n : flip (IZR a) (ofZ n) = ofZ (a - n).
Proof. unfold flip. cbn. now rewrite minus_IZR. Qed.
Lemma lt_l a n (x : @F XR) : (flip (IZR a) x <~ ofZ n) = (ofZ (a - n) <~ x).
Proof. replace (ofZ n) with (flip (IZR a) (ofZ (a - n))) by (rewrite flip_Z; f_equal; lia). apply flip_lt. Qed.
Lemma lt_r a n (x : @F XR) : (ofZ n <~ flip (IZR a) x) = (x <~ ofZ (a - n)).
Proof. replace (ofZ n) with (flip (IZR a) (ofZ (a - n))) by (rewrite flip_Z; f_equal; lia). apply flip_lt. Qed.
Lemma col_at A (f g : A -> @F XR) (r r' : list (row A)) a i x x' : column g r' = map (fun x => (Fin a : @F XR) -~ x) (column f r) -> nth_error r i = Some x -> nth_error r' i = Some x' -> g (rVal x') = flip a (f (rVal x)).
Proof.
  intros E Hx Hx'. assert (Q : nth_error (column g r') i = nth_error (map (fun x => (Fin a : @F XR) -~ x) (column f r)) i) by now rewrite E.
  unfold column in Q. rewrite !nth_error_map, Hx, Hx' in Q. cbn [option_map] in Q. injection Q as Q. exact Q.
Qed.
Arguments col_at {A f g r r' a i x x'}.
Lemma col_len A B (f g : A -> B) (r r' : list (row A)) (h : B -> B) n : column g r' = map h (column f r) -> length r = n -> length r' = n.
Proof. intros E L. apply (f_equal (@length _)) in E. unfold column in E. rewrite !map_length in E. congruence. Qed.
Lemma xlt_excl (x y : @F XR) : (x <~ y) = true -> (y <~ x) = true -> False.
Proof. intros H1 H2. apply (lt_excl XR_ord) in H1. congruence. Qed.

Lemma level_excl (x : @F XR) a b : a <= b -> (x <~ ofZ a) = true -> (ofZ b <~ x) = true -> False.
Proof. intros Hab H1 H2. apply IZR_le in Hab. destruct x as [u| | |]; cbn in H1, H2; try discriminate. destruct (Rltb_spec u (IZR a)), (Rltb_spec (IZR b) u); try discriminate. lra. Qed.
Ltac in_all := unfold append_style, make_style; cbn [In]; tauto.
Ltac no_proj := let H := fresh in intros ? H; discriminate H.
Ltac excl_tac := intros; cbn beta in *; repeat match goal with H : _ /\ _ |- _ => destruct H end;
  match goal with H1 : (?x <~ ?y) = true, H2 : (?y <~ ?x) = true |- _ => exact (xlt_excl _ _ H1 H2) | H1 : (?x <~ ofZ _) = true, H2 : (ofZ _ <~ ?x) = true |- _ => refine (@level_excl _ _ _ _ H1 H2); lia end.

Ltac one M := let Q := fresh "Q" in let r2 := fresh in let r2' := fresh in let E2 := fresh in let E2' := fresh in
  match goal with Hr : real_candles ?kl, Hn : (1 <= length ?kl)%nat, c : R, E : rows_of _ _ ?kl = Ok ?r, E' : rows_of _ _ (map _ ?kl) = Ok ?r' |- _ =>
    destruct (M c kl Hr Hn) as (r2 & r2' & E2 & E2' & _ & Q); rewrite E in E2; injection E2 as <-; rewrite E' in E2'; injection E2' as <-; cbn [Nat.sub skipn] in Q end.
Ltac at_rows Q := try rewrite (col_at Q ltac:(eassumption) ltac:(eassumption)); try rewrite (col_at Q ltac:(eassumption) ltac:(eassumption)).
Ltac opp_tac fol Q := 
  match goal with E : rows_of _ _ ?kl = Ok ?r, E' : rows_of _ _ (map _ ?kl) = Ok ?r', Lr : length ?r = length ?kl |- _ =>
    assert (length r' = length kl) by (exact (col_len _ _ _ _ _ Q Lr)); eapply opp_at; [in_all|no_proj|reflexivity|exact fol|exact E|exact E'|exact Lr|assumption|excl_tac|] end.

(** one column compared with fixed levels *)
Lemma opp_levels (I : Indicator (N := XR)) (p : Param I) f (g : Val I -> @F XR) (a : Z) (B S : Candle (N := XR) -> Candle (N := XR) -> Val I -> Val I -> Prop) :
  In I append_style \/ In I make_style -> (forall n, counts I n) -> Sides I = Some f -> mirrors I p g g (fun _ => IZR a) 1 -> follows I p 1 B S ->
  (forall k k' v w, B k k' v w -> S k k' v w -> False) ->
  (forall c k k' v w v' w', g v' = flip (IZR a) (g v) -> g w' = flip (IZR a) (g w) -> (B (mirrored c k) (mirrored c k') v' w' <-> S k k' v w) /\ (S (mirrored c k) (mirrored c k') v' w' <-> B k k' v w)) ->
  opposite_signals I p 1.
Proof.
  intros HI Hc Hf HM HF X HR c kl Hr Hn. destruct (HM c kl Hr Hn) as (r & r' & E & E' & Lr & Q). cbn [Nat.sub skipn] in Q.
  assert (Lr' : length r' = length kl) by (exact (col_len _ _ _ _ _ Q Lr)). apply (@opp_at I p f B S c kl r r'); auto.
  intros i j x y x' y' Hx Hy Hx' Hy' k k' _ _. apply HR; eapply col_at; eauto.
Qed.
Ltac levels_eval := repeat match goal with |- context [(?a - ?b)%Z] => let v := eval compute in (a - b)%Z in change (a - b)%Z with v end.
Ltac levels M fol := eapply opp_levels; [in_all|no_proj|reflexivity|exact M|exact fol|excl_tac|
  let E1 := fresh in let E2 := fresh in intros c k k' v w v' w' E1 E2; cbn beta in E1, E2 |- *; rewrite E1, E2, !lt_l, !lt_r; levels_eval; tauto].
Theorem C98_sign_signals : (forall p, 0 <= fsFast p -> 0 <= fsSlow p -> opposite_signals I_APO p 1) /\ opposite_signals I_AO tt 1 /\ (forall p, opposite_signals I_Chaikin p 1).
Proof.
  split; [|split].
  - intros p H1 H2. levels (C98_APO p H1 H2) (C64_APO (N := XR) p).
  - levels C98_AO (C64_AO (N := XR) tt).
  - intros p. levels (proj1 (C98_Chaikin p)) (C64_Chaikin (N := XR) p).
Qed.

Theorem C98_level_signals : (forall p, 1 <= p -> opposite_signals I_Williams p 1) /\
  (forall p, (1 <= p)%nat -> opposite_signals I_Cci (mkCciP (Z.of_nat p) (Z.of_nat p)) 1 /\ opposite_signals I_AiCoinCCI (Z.of_nat p) 1).
Proof.
  split.
  - intros p Hp. levels (C98_Williams Hp) (C64_WilliamsR (N := XR) p).
  - intros p Hp. split; [levels (proj1 (C98_Cci Hp)) (C64_Cci (N := XR) (mkCciP (Z.of_nat p) (Z.of_nat p)))|levels (proj2 (C98_Cci Hp)) (C64_AiCoinCCI (N := XR) (Z.of_nat p))].
Qed.
Theorem C98_Macd_signals p : 0 <= mShort p -> 0 <= mLong p -> 0 <= mSignal p -> opposite_signals I_Macd p 1.
Proof.
  intros H1 H2 H3 c kl Hr Hn. destruct (C98_Macd p H1 H2 H3) as (M1 & M2 & _).
  destruct (M1 c kl Hr Hn) as (r & r' & E & E' & Lr & Q1). cbn [Nat.sub skipn] in Q1. one M2.
  opp_tac (C64_Macd (N := XR) p) Q1.
  intros i j x y x' y' X Y X' Y' k k' _ _. cbn beta. rewrite (col_at Q1 X X'), (col_at Q1 Y Y'), (col_at Q X X'), (col_at Q Y Y').
  rewrite !flip_lt, !lt_l, !lt_r. levels_eval. tauto.
Qed.
(** price against the middle line *)
Lemma opp_middle (I : Indicator (N := XR)) (p : Param I) f (g : Val I -> @F XR) :
  In I append_style \/ In I make_style -> (forall n, counts I n) -> Sides I = Some f -> mirrors I p g g same_level 1 ->
  follows I p 1 (fun c c' v w => (cClose c >~ g v) = true /\ (cClose c' <~ g w) = true) (fun c c' v w => (cClose c <~ g v) = true /\ (cClose c' >~ g w) = true) ->
  opposite_signals I p 1.
Proof.
  intros HI Hc Hf HM HF c kl Hr Hn. destruct (HM c kl Hr Hn) as (r & r' & E & E' & Lr & Q). cbn [Nat.sub skipn] in Q.
  assert (Lr' : length r' = length kl) by (exact (col_len _ _ _ _ _ Q Lr)). eapply (@opp_at I p f _ _ c kl r r'); eauto; [excl_tac|].
  intros i j x y x' y' Hx Hy Hx' Hy' k k' _ _. cbn beta. rewrite (col_at Q Hx Hx'), (col_at Q Hy Hy').
  change (cClose (mirrored c k)) with (flip c (cClose k)). change (cClose (mirrored c k')) with (flip c (cClose k')). rewrite !flip_lt. tauto.
Qed.
Theorem C98_Keltner_middle p : 0 <= p -> mirrors I_Keltner p (fun v => bMiddle v) (fun v => bMiddle v) same_level 1.
Proof. intros Hp. eapply mirrors_F; [intros kl; apply Keltner_T|]. intros c kl Hr. unfold keltF. cbn [bMiddle]. apply turned_ema; [exact Hp|]. now apply mir_close. Qed.
Theorem C98_middle_signals p : 1 <= p -> opposite_signals I_Donchian p 1 /\ opposite_signals I_Keltner p 1.
Proof.
  intros Hp. split; (eapply opp_middle; [in_all|no_proj|reflexivity|..]).
  - exact (proj1 (proj2 (C98_Donchian Hp))).
  - exact (C64_Donchian (N := XR) p).
  - exact (@C98_Keltner_middle p ltac:(lia)).
  - exact (C64_Keltner (N := XR) p).
Qed.
(** K against D, where the prices move *)
Theorem C98_Kdj_signals (p : nat) (c : R) (kl : kline) : (2 <= p)%nat -> real_candles kl -> moves_by (1 / 1000000) p (p - 1) kl ->
  exists s s', sides_of I_Kdj (Z.of_nat p) kl = Ok s /\ sides_of I_Kdj (Z.of_nat p) (map (mirrored c) kl) = Ok s' /\ length s = length kl /\ skipn 1 s' = map opposite (skipn 1 s).
Proof.
  intros Hp Hr HM. destruct (C98_Kdj c Hp Hr HM) as (r & r' & E & E' & Lr & Q1 & Q2 & Q3 & _).
  opp_tac (C64_Kdj (N := XR) (Z.of_nat p)) Q1.
  intros i j x y x' y' X Y X' Y' k k' _ _. cbn beta. 
  assert (A : forall i x x', nth_error r i = Some x -> nth_error r' i = Some x' -> kK (rVal x') = flip 100 (kK (rVal x)) /\ kD (rVal x') = flip 100 (kD (rVal x)) /\ kJ (rVal x') = flip 100 (kJ (rVal x))) by (intros; repeat split; eapply col_at; eassumption).
  destruct (A _ _ _ X X') as (-> & -> & ->), (A _ _ _ Y Y') as (-> & -> & ->).
  rewrite !flip_lt. tauto.
Qed.
Theorem C98_Stochastic_signals (p : Z) (d c : R) (kl : kline) : 1 <= p -> real_candles kl -> (0 < d)%R -> moves_by d (Z.to_nat p) 0 kl ->
  exists s s', sides_of I_Stoch p kl = Ok s /\ sides_of I_Stoch p (map (mirrored c) kl) = Ok s' /\ length s = length kl /\ skipn 1 s' = map opposite (skipn 1 s).
Proof.
  intros Hp Hr Hd HM. destruct (C98_Stochastic c Hp Hr Hd HM) as (r & r' & E & E' & Lr & Q1 & Q2).
  opp_tac (C64_Stoch (N := XR) p) Q1.
  intros i j x y x' y' X Y X' Y' k k' _ _. cbn beta. 
  assert (A : forall i x x', nth_error r i = Some x -> nth_error r' i = Some x' -> kdK (rVal x') = flip 100 (kdK (rVal x)) /\ kdD (rVal x') = flip 100 (kdD (rVal x))) by (intros; split; eapply col_at; eassumption).
  destruct (A _ _ _ X X') as (-> & ->), (A _ _ _ Y Y') as (-> & ->).
  rewrite !flip_lt. tauto.
Qed.
(** TraderXO *)
Theorem C98_TraderXO_signals p : 0 <= xFastP p -> 0 <= xSlowP p -> opposite_signals I_TraderXO p 0.
Proof.
  intros H1 H2 c kl Hr Hn. set (kl' := map (mirrored c) kl).
  set (G := fun kl i => mkXOV (N := XR) (emaF (xFastP p) (C kl) i) (emaF (xSlowP p) (C kl) i)).
  assert (S : forall kl, sides_of I_TraderXO p kl = Ok (tab (length kl) (xo_side (G kl)))).
  { intros k. unfold sides_of, AnalysisSide. cbn [Sides I_TraderXO]. match goal with |- context [GetData ?a ?b ?c ?d] => change (GetData a b c d) with (rows_of I_TraderXO p k) end.
    rewrite TraderXO_T. cbn [bind]. rewrite (traderxo_T (G k)); [reflexivity|]. intros i. apply (lt_excl XR_ord). }
  eexists _, _. split; [apply S|]. split; [apply S|]. split; [apply tab_length|].
  fold kl'. replace (length kl') with (length kl) by (symmetry; apply map_length). cbn [skipn]. rewrite tabmap. apply tab_ext. intros i Hi.
  pose proof (turned_ema H1 (mir_close c Hr)) as MF. pose proof (turned_ema H2 (mir_close c Hr)) as MS. fold kl' in MF, MS.
  assert (A : forall j, (j < length kl)%nat -> (xSlow (G kl' j) <~ xFast (G kl' j)) = (xFast (G kl j) <~ xSlow (G kl j)) /\ (xFast (G kl' j) <~ xSlow (G kl' j)) = (xSlow (G kl j) <~ xFast (G kl j))).
  { intros j Hj. unfold G. cbn [xFast xSlow]. split; [exact (lt_turn (MS j Hj) (MF j Hj))|exact (lt_turn (MF j Hj) (MS j Hj))]. }
  assert (O : forall (b l b' l' : nat -> bool) j, (forall k, (k < j)%nat -> b' k = l k /\ l' k = b k) -> opened b' l' j = opened l b j).
  { intros b l b' l'. induction j as [|[|j] IH]; intros HE; try reflexivity. rewrite !opened_S by lia. destruct (HE (Datatypes.S j) ltac:(lia)) as [-> ->]. rewrite IH; [reflexivity|]. intros k Hk. apply HE. lia. }
  destruct i as [|i]; [reflexivity|]. unfold xo_side. destruct (A (Datatypes.S i) Hi) as [-> ->].
  rewrite (O (fun i => xSlow (G kl i) <~ xFast (G kl i)) (fun i => xFast (G kl i) <~ xSlow (G kl i)) (fun i => xSlow (G kl' i) <~ xFast (G kl' i)) (fun i => xFast (G kl' i) <~ xSlow (G kl' i)) (Datatypes.S i)) by (intros k Hk; apply A; lia).
  rewrite (O (fun i => xFast (G kl i) <~ xSlow (G kl i)) (fun i => xSlow (G kl i) <~ xFast (G kl i)) (fun i => xFast (G kl' i) <~ xSlow (G kl' i)) (fun i => xSlow (G kl' i) <~ xFast (G kl' i)) (Datatypes.S i)) by (intros k Hk; destruct (A k ltac:(lia)); now split).
  destruct (xFast (G kl (Datatypes.S i)) <~ xSlow (G kl (Datatypes.S i))) eqn:EL; [apply (lt_excl XR_ord) in EL; rewrite EL; cbn; now destruct (negb _)|].
  cbn [andb]. destruct (xSlow (G kl (Datatypes.S i)) <~ xFast (G kl (Datatypes.S i))); cbn [andb]; [destruct (negb _)|]; reflexivity.
Qed.
(** EMAVegas, once its ten bars of history are there *)
Theorem C98_EMAVegas_signals p : 0 <= vgP p -> 0 <= vgS1 p -> 0 <= vgS2 p -> 0 <= vgL1 p -> 0 <= vgL2 p -> opposite_signals I_EMAVegas p 11.
Proof.
  intros H1 H2 H3 H4 H5 c kl Hr Hn. destruct (C98_EMAVegas p H1 H2 H3 H4 H5) as (M1 & M2 & M3 & M4 & M5).
  destruct (M1 c kl Hr Hn) as (r & r' & E & E' & Lr & Q1). cbn [Nat.sub skipn] in Q1. one M2. one M3. one M4. one M5.
  assert (Lr' : length r' = length kl) by (exact (col_len _ _ _ _ _ Q1 Lr)).
  destruct (@both_sides I_EMAVegas p (fun _ => vegas_sides (N := XR)) kl r) as (s & Es & Ls); [in_all|no_proj|reflexivity|exact E|exact Lr|].
  destruct (@both_sides I_EMAVegas p (fun _ => vegas_sides (N := XR)) (map (mirrored c) kl) r') as (s' & Es' & Ls'); [in_all|no_proj|reflexivity|exact E'|rewrite map_length; exact Lr'|]. rewrite map_length in Ls'.
  exists s, s'. split; [exact Es|]. split; [exact Es'|]. split; [exact Ls|]. apply skip_opp; [congruence|]. intros i d d' Hi Hd Hd'.
  assert (Li : (i < length kl)%nat) by (rewrite <- Ls; apply nth_error_Some; congruence).
  assert (N : forall A (l : list A) j, (j < length l)%nat -> exists a, nth_error l j = Some a) by (intros A l j Hj; destruct (nth_error l j) eqn:W; [eauto|apply nth_error_None in W; lia]).
  set (t := r : list (row (VegasV (N := XR)))). set (t' := r' : list (row (VegasV (N := XR)))).
  assert (A : forall i x x', nth_error t i = Some x -> nth_error t' i = Some x' -> gV (rVal x') = flip c (gV (rVal x)) /\ gS1 (rVal x') = flip c (gS1 (rVal x)) /\ gS2 (rVal x') = flip c (gS2 (rVal x)) /\ gL1 (rVal x') = flip c (gL1 (rVal x)) /\ gL2 (rVal x') = flip c (gL2 (rVal x)))
    by (intros; repeat split; eapply col_at; eassumption).
  assert (Lt : length t = length kl) by exact Lr. assert (Lt' : length t' = length kl) by exact Lr'.
  destruct (N _ kl i Li) as (k & K1), (N _ t i ltac:(lia)) as (v & V1), (N _ t' i ltac:(lia)) as (v' & V2).
  assert (K2 : nth_error (map (mirrored c) kl) i = Some (mirrored c k)) by (now rewrite nth_error_map, K1).
  pose proof (@C64_EMAVegas XR p kl t s i k v d E Es Hi K1 V1 Hd) as S1. pose proof (@C64_EMAVegas XR p _ t' s' i _ v' d' E' Es' Hi K2 V2 Hd') as S2. cbn zeta in S1, S2.
  destruct (A _ _ _ V1 V2) as (F1 & F2 & F3 & F4 & F5).
  assert (X : forall (P P' : VegasV (N := XR) -> Prop) (Q Q' : VegasV (N := XR) -> Prop),
     (forall x x', gS2 x' = flip c (gS2 x) -> gL2 x' = flip c (gL2 x) -> (P' x' <-> P x) /\ (Q' x' <-> Q x)) ->
     ((exists k x y, (i - 10 <= k < i)%nat /\ nth_error t' k = Some x /\ nth_error t' (pred k) = Some y /\ P' (rVal x) /\ Q' (rVal y)) <->
      (exists k x y, (i - 10 <= k < i)%nat /\ nth_error t k = Some x /\ nth_error t (pred k) = Some y /\ P (rVal x) /\ Q (rVal y)))).
  { intros P P' U U' HP. split; intros (n & x & y & Hn' & X & Y & A1 & B1).
    - destruct (N _ t n ltac:(lia)) as (x0 & X0), (N _ t (pred n) ltac:(lia)) as (y0 & Y0). exists n, x0, y0. destruct (A _ _ _ X0 X) as (_ & _ & G1 & _ & G2), (A _ _ _ Y0 Y) as (_ & _ & G3 & _ & G4).
      destruct (HP _ _ G1 G2) as [J1 _], (HP _ _ G3 G4) as [_ J2]. tauto.
    - destruct (N _ t' n ltac:(lia)) as (x0 & X0), (N _ t' (pred n) ltac:(lia)) as (y0 & Y0). exists n, x0, y0. destruct (A _ _ _ X X0) as (_ & _ & G1 & _ & G2), (A _ _ _ Y Y0) as (_ & _ & G3 & _ & G4).
      destruct (HP _ _ G1 G2) as [J1 _], (HP _ _ G3 G4) as [_ J2]. tauto. }
  refine (signal_swap _ _ _ S1 S2); clear S1 S2.
  - intros (A1 & _) (B1 & _). exact (xlt_excl _ _ A1 B1).
  - rewrite (X (fun x => (gS2 x <~ gL2 x) = true) (fun x => (gS2 x >~ gL2 x) = true) (fun x => (gS2 x >~ gL2 x) = true) (fun x => (gS2 x <~ gL2 x) = true)) by (intros x x' -> ->; rewrite !flip_lt; tauto).
    rewrite F1, F2, F3, F4, F5, !flip_lt. cbn [mirrored cBull]. rewrite negb_true_iff. tauto.
  - rewrite (X (fun x => (gS2 x >~ gL2 x) = true) (fun x => (gS2 x <~ gL2 x) = true) (fun x => (gS2 x <~ gL2 x) = true) (fun x => (gS2 x >~ gL2 x) = true)) by (intros x x' -> ->; rewrite !flip_lt; tauto).
    rewrite F1, F2, F3, F4, F5, !flip_lt. cbn [mirrored cBull]. rewrite negb_false_iff. tauto.
Qed.
Print Assumptions C98_LinearRegCandles.
Print Assumptions C98_sign_signals.
Print Assumptions C98_level_signals.
Print Assumptions C98_Macd_signals.
Print Assumptions C98_Keltner_middle.
Print Assumptions C98_middle_signals.
Print Assumptions C98_Kdj_signals.
Print Assumptions C98_Stochastic_signals.
Print Assumptions C98_TraderXO_signals.
Print Assumptions C98_EMAVegas_signals.
