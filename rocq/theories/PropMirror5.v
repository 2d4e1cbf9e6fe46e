(** * PropMirror5: property C98, continued: the Ichimoku cloud. *)
From Coq Require Import Reals Lra ZArith Lia Bool List PeanoNat Classical_Prop.
From Verif Require Import Base Num XReal Order OrderMore FloatLaws FloatOrder FloatBounds SpecNum B64 Lits Containers Ta TaTools TaAvg TaRange TaStat SpecTa Sides Klines RSum XrMore
  IndBase IndTrend IndChannel IndOsc IndVolume IndAll IndTools IndForms IndForms2 IndForms3 IndForms4 IndForms5 IndFormsSpec IndMachines IndBounds IndBounds2 IndExact TaDev TaReg SpecInd SpecInd2 SpecBar SpecMemory SpecMirror
  IndLife CrashSides PropInd1 PropInd2 PropInd5 PropInd6 PropInd7 PropInd8 PropInd9 PropInd11 PropInd12 PropMemory PropMemory2 ShiftTools PropShift MirrorTools PropMirror PropMirror2 PropMirror3.
Import ListNotations.
Set Implicit Arguments.
Open Scope Z_scope.
Local Notation C kl := (fun i => cClose (cn kl i)).
Local Notation rows kl g := (Ok (tab (length kl) (fun i => mkRow (tm kl i) (g i)))).
Local Notation kline := (list (Candle (N := XR))).
Local Notation same_level := (fun c : R => c).

Definition halfway (u l : nat -> @F XR) (i : nat) : @F XR := (u i +~ l i) *~ (ofZ 1 /~ ofZ 2).
Lemma mid_line_K a b (kl : kline) : real_candles kl -> 1 <= a -> 1 <= b ->
  exists u l, mid_line a b (tab (length kl) (fun i => cHigh (cn kl i))) (tab (length kl) (fun i => cLow (cn kl i))) = Ok (tab (length kl) (halfway u l)) /\
    tops (fun k => cHigh k) a kl u /\ bottoms (fun k => cLow k) b kl l.
Proof.
  intros Hr Ha Hb. destruct (@Max_K XR XR_ord (fun k => cHigh k) a kl Ha (real_no_nan _ bar_high Hr)) as (u & Eu & Hu), (@Min_K XR XR_ord (fun k => cLow k) b kl Hb (real_no_nan _ bar_low Hr)) as (l & El & Hl).
  exists u, l. unfold mid_line. rewrite Eu. cbn [bind]. rewrite El. cbn [bind]. rewrite Add_T. cbn [bind]. rewrite DivideBy_T. now split.
Qed.
Definition ichiG (p : IchiP) (kl : kline) (u1 l1 u2 l2 u3 l3 : nat -> @F XR) (i : nat) : IchiV (N := XR) :=
  mkIchiV (N := XR) (halfway u1 l1 i) (halfway u2 l2 i) ((halfway u1 l1 i +~ halfway u2 l2 i) *~ (ofZ 1 /~ ofZ 2)) (halfway u3 l3 i)
    (if (i <? Z.to_nat (icLag p))%nat then ofZ 0 else cClose (cn kl (i - Z.to_nat (icLag p)))).
Definition ichiP (p : IchiP) (kl : kline) (g : nat -> IchiV (N := XR)) : Prop := exists u1 l1 u2 l2 u3 l3,
  (tops (fun k => cHigh k) 9 kl u1 /\ bottoms (fun k => cLow k) (icConv p) kl l1) /\ (tops (fun k => cHigh k) 26 kl u2 /\ bottoms (fun k => cLow k) 26 kl l2) /\
  (tops (fun k => cHigh k) (icSpanB p) kl u3 /\ bottoms (fun k => cLow k) (icSpanB p) kl l3) /\ g = ichiG p kl u1 l1 u2 l2 u3 l3.
Lemma Ichimoku_K (p : IchiP) (kl : kline) : real_candles kl -> 1 <= icConv p -> 1 <= icSpanB p -> 0 <= icLag p -> exists g, rows_of I_Ichimoku p kl = rows kl g /\ ichiP p kl g.
Proof.
  intros Hr Hc Hb Hg. destruct (@mid_line_K 9 (icConv p) kl Hr ltac:(lia) Hc) as (u1 & l1 & E1 & M1), (@mid_line_K 26 26 kl Hr ltac:(lia) ltac:(lia)) as (u2 & l2 & E2 & M2), (@mid_line_K _ _ kl Hr Hb Hb) as (u3 & l3 & E3 & M3).
  exists (ichiG p kl u1 l1 u2 l2 u3 l3). split; [|exists u1, l1, u2, l2, u3, l3; auto].
  T_start I_Ichimoku ichi_calc. rewrite E1. cbn [bind]. rewrite E2. cbn [bind]. T_steps. rewrite E3. cbn [bind]. unfold ShiftRight. T_steps.
  T_append (ichiG p kl u1 l1 u2 l2 u3 l3).
Qed.
Lemma halfway_turn c n u l u' l' : turned c n l u' -> turned c n u l' -> turned c n (halfway u l) (halfway u' l').
Proof.
  intros A B i Hi. unfold halfway. rewrite half_is. destruct (A i Hi) as (x & Ex & Ex'), (B i Hi) as (y & Ey & Ey'). rewrite Ex, Ex', Ey, Ey'.
  exists ((y + x) / 2)%R. split; cbn; f_equal; lra.
Qed.
Lemma mid_turn a c kl u l u' l' : real_candles kl -> tops (fun k => cHigh k) a kl u -> bottoms (fun k => cLow k) a kl l ->
  tops (fun k => cHigh k) a (map (mirrored c) kl) u' -> bottoms (fun k => cLow k) a (map (mirrored c) kl) l' -> turned c (length kl) (halfway u l) (halfway u' l').
Proof.
  intros Hr U D U' D'. apply halfway_turn.
  - exact (@top_turn (fun k => cLow k) (fun k => cHigh k) a c kl l u' bar_low (fun k => eq_refl) Hr D U').
  - exact (@bottom_turn (fun k => cHigh k) (fun k => cLow k) a c kl u l' bar_high (fun k => eq_refl) Hr U D').
Qed.

(** The base line and span B turn with the chart; so do the conversion line and span A when the conversion period is nine, the number of
    highs the code looks at; the lagging line does from the bar on where it has a price to show *)
Theorem C98_Ichimoku_lines p : 1 <= icConv p -> 1 <= icSpanB p -> 0 <= icLag p ->
  mirrors I_Ichimoku p (fun v => iBase v) (fun v => iBase v) same_level 1 /\ mirrors I_Ichimoku p (fun v => iSpanB v) (fun v => iSpanB v) same_level 1 /\
  mirrors I_Ichimoku p (fun v => iLag v) (fun v => iLag v) same_level (S (Z.to_nat (icLag p))).
Proof.
  intros H1 H2 H3. repeat apply conj; (apply mirrors_T with (P := ichiP p); [intros kl Hr _; now apply Ichimoku_K|]);
  intros c kl g g' Hr (u1 & l1 & u2 & l2 & u3 & l3 & M1 & [T2 B2] & [T3 B3] & ->) (u1' & l1' & u2' & l2' & u3' & l3' & M1' & [T2' B2'] & [T3' B3'] & ->) i Hi; unfold ichiG; cbn [iBase iSpanB iLag].
  - apply nrel_flip. eapply mid_turn; eauto. lia.
  - apply nrel_flip. eapply mid_turn; eauto. lia.
  - destruct (Nat.ltb_spec i (Z.to_nat (icLag p))); [lia|]. rewrite cn_mir by lia. reflexivity.
Qed.
Print Assumptions C98_Ichimoku_lines.
Theorem C98_Ichimoku b g : 1 <= b -> 0 <= g -> let p := mkIchiP 9 b g in
  mirrors I_Ichimoku p (fun v => iConv v) (fun v => iConv v) same_level 1 /\ mirrors I_Ichimoku p (fun v => iSpanA v) (fun v => iSpanA v) same_level 1.
Proof.
  intros H2 H3 p. split; (apply mirrors_T with (P := ichiP p); [intros kl Hr _; apply Ichimoku_K; [exact Hr|cbn; lia|exact H2|exact H3]|]);
  intros c kl G G' Hr (u1 & l1 & u2 & l2 & u3 & l3 & [T1 B1] & [T2 B2] & _ & ->) (u1' & l1' & u2' & l2' & u3' & l3' & [T1' B1'] & [T2' B2'] & _ & ->) i Hi; unfold ichiG; cbn [iConv iSpanA]; apply nrel_flip.
  - eapply mid_turn; eauto. lia.
  - assert (A : nrel c (halfway u1 l1 i) (halfway u1' l1' i)) by (eapply mid_turn; eauto; lia). assert (B : nrel c (halfway u2 l2 i) (halfway u2' l2' i)) by (eapply mid_turn; eauto; lia).
    rewrite half_is. destruct A as (x & -> & ->), B as (y & -> & ->). exists ((x + y) / 2)%R. split; cbn; f_equal; lra.
Qed.
Print Assumptions C98_Ichimoku.
(** ... and then the mirrored chart sells where the original buys *)
Theorem C98_Ichimoku_signals b g : 1 <= b -> 0 <= g -> opposite_signals I_Ichimoku (mkIchiP 9 b g) 9.
Proof.
  intros H2 H3 c kl Hr Hn. set (p := mkIchiP 9 b g). destruct (C98_Ichimoku H2 H3) as (_ & MA). destruct (@C98_Ichimoku_lines p ltac:(cbn; lia) H2 H3) as (_ & MB & _). fold p in MA.
  destruct (MA c kl Hr Hn) as (r & r' & E & E' & Lr & Q1). cbn [Nat.sub skipn] in Q1. one MB.
  assert (Lr' : length r' = length kl) by (exact (col_len _ _ _ _ _ Q1 Lr)).
  destruct (@both_sides I_Ichimoku p (ichi_sides (N := XR)) kl r) as (s & Es & Ls); [in_all|no_proj|reflexivity|exact E|exact Lr|].
  destruct (@both_sides I_Ichimoku p (ichi_sides (N := XR)) (map (mirrored c) kl) r') as (s' & Es' & Ls'); [in_all|no_proj|reflexivity|exact E'|rewrite map_length; exact Lr'|]. rewrite map_length in Ls'.
  exists s, s'. split; [exact Es|]. split; [exact Es'|]. split; [exact Ls|]. apply skip_opp; [congruence|]. intros i d d' Hi Hd Hd'.
  assert (Li : (i < length kl)%nat) by (rewrite <- Ls; apply nth_error_Some; congruence).
  assert (N : forall A (l : list A) j, (j < length l)%nat -> exists a, nth_error l j = Some a) by (intros A l j Hj; destruct (nth_error l j) eqn:W; [eauto|apply nth_error_None in W; lia]).
  set (t := r : list (row (IchiV (N := XR)))). set (t' := r' : list (row (IchiV (N := XR)))). assert (Lt : length t = length kl) by exact Lr. assert (Lt' : length t' = length kl) by exact Lr'.
  destruct (N _ kl i Li) as (k & K1), (N _ kl (pred i) ltac:(lia)) as (k' & K2), (N _ t i ltac:(lia)) as (v & V1), (N _ t (pred i) ltac:(lia)) as (w & V2), (N _ t' i ltac:(lia)) as (v' & V3), (N _ t' (pred i) ltac:(lia)) as (w' & V4).
  assert (K3 : nth_error (map (mirrored c) kl) i = Some (mirrored c k)) by (now rewrite nth_error_map, K1). assert (K4 : nth_error (map (mirrored c) kl) (pred i) = Some (mirrored c k')) by (now rewrite nth_error_map, K2).
  assert (A1 : iSpanA (rVal v') = flip c (iSpanA (rVal v))) by (eapply col_at; eassumption). assert (A2 : iSpanA (rVal w') = flip c (iSpanA (rVal w))) by (eapply col_at; eassumption).
  assert (B1 : iSpanB (rVal v') = flip c (iSpanB (rVal v))) by (eapply col_at; eassumption). assert (B2 : iSpanB (rVal w') = flip c (iSpanB (rVal w))) by (eapply col_at; eassumption).
  pose proof (@C64_Ichimoku XR p kl t s E Es i k k' v w d ltac:(cbn; lia) ltac:(lia) K1 K2 V1 V2 Hd) as S1.
  pose proof (@C64_Ichimoku XR p _ t' s' E' Es' i _ _ v' w' d' ltac:(cbn; lia) ltac:(lia) K3 K4 V3 V4 Hd') as S2.
  cbn beta in S1, S2. cbn [Val I_Ichimoku] in S1, S2. refine (signal_swap _ _ _ S1 S2).
  - intros (X1 & _) (Y1 & _). exact (xlt_excl _ _ X1 Y1).
  - rewrite A1, A2, B1, B2. change (cClose (mirrored c k)) with (flip c (cClose k)). change (cClose (mirrored c k')) with (flip c (cClose k')). rewrite !flip_lt. tauto.
  - rewrite A1, A2, B1, B2. change (cClose (mirrored c k)) with (flip c (cClose k)). change (cClose (mirrored c k')) with (flip c (cClose k')). rewrite !flip_lt. tauto.
Qed.
Print Assumptions C98_Ichimoku_signals.
(** With another conversion period the line looks at nine highs but another number of lows, so it does not turn *)
Lemma two_max (x y : R) (m : @F XR) : max_of (N := XR) m [Fin x; Fin y] -> (x >= y)%R -> m = Fin x.
Proof.
  intros H Hxy. change [Fin x; Fin y] with (fins [x; y]) in H. apply max_of_exact in H as (r & -> & I & U). f_equal.
  destruct I as [<-|[<-|[]]]; [reflexivity|]. pose proof (U x (or_introl eq_refl)). lra.
Qed.
Lemma one_min (y : R) (m : @F XR) : min_of (N := XR) m [Fin y] -> m = Fin y.
Proof. intros H. change [Fin y] with (fins [y]) in H. apply min_of_exact in H as (r & -> & [<-|[]] & _). reflexivity. Qed.
Theorem C98_Ichimoku_conversion_refuted b g : 1 <= b -> 0 <= g -> ~ mirrors I_Ichimoku (mkIchiP 1 b g) (fun v => iConv v) (fun v => iConv v) same_level 1.
Proof.
  intros Hb Hg HM. set (p := mkIchiP 1 b g) in *. set (kl := map at_price [4; 2]%R).
  assert (Hr : real_candles kl) by apply at_price_real. assert (Hr' := mir_real 6 Hr).
  destruct (HM 6%R kl Hr ltac:(cbn; lia)) as (r & r' & E & E' & _ & Q).
  destruct (@Ichimoku_K p kl Hr ltac:(cbn; lia) Hb Hg) as (G & EG & (u1 & l1 & u2 & l2 & u3 & l3 & [T1 B1] & _ & _ & ->)).
  destruct (@Ichimoku_K p _ Hr' ltac:(cbn; lia) Hb Hg) as (G' & EG' & (u1' & l1' & u2' & l2' & u3' & l3' & [T1' B1'] & _ & _ & ->)).
  rewrite E in EG. injection EG as ->. rewrite E' in EG'. injection EG' as ->.
  apply (f_equal (fun l => nth_error l 1)) in Q. rewrite nth_error_map, !nth_error_skipn in Q. unfold column in Q. rewrite !tabmap in Q. cbn [rVal] in Q. rewrite !nth_error_tab in Q by (rewrite ?map_length; cbn; lia).
  cbn [option_map Nat.sub Nat.add] in Q. injection Q as Q. unfold ichiG in Q. cbn [iConv] in Q. unfold halfway in Q. rewrite half_is in Q.
  specialize (T1 1%nat ltac:(cbn; lia)). specialize (B1 1%nat ltac:(cbn; lia)). specialize (T1' 1%nat ltac:(cbn; lia)). specialize (B1' 1%nat ltac:(cbn; lia)).
  change (window (map (fun k => cHigh k) kl) 1 (Z.to_nat 9)) with [Fin 4 : @F XR; Fin 2 : @F XR] in T1. change (window (map (fun k => cLow k) kl) 1 (Z.to_nat (icConv p))) with [Fin 2 : @F XR] in B1.
  change (window (map (fun k => cHigh k) (map (mirrored 6) kl)) 1 (Z.to_nat 9)) with [Fin (6 + - 4) : @F XR; Fin (6 + - 2) : @F XR] in T1'. change (window (map (fun k => cLow k) (map (mirrored 6) kl)) 1 (Z.to_nat (icConv p))) with [Fin (6 + - 2) : @F XR] in B1'.
  apply two_max in T1; [|lra]. apply one_min in B1, B1'.
  change [Fin (6 + - 4) : @F XR; Fin (6 + - 2) : @F XR] with (fins [6 + - 4; 6 + - 2]%R) in T1'. apply max_of_exact in T1' as (m & Em & I & U).
  rewrite T1, B1, B1', Em in Q. cbn in Q. injection Q as Q. pose proof (U (6 + - 2)%R (or_intror (or_introl eq_refl))). lra.
Qed.
Print Assumptions C98_Ichimoku_conversion_refuted.
Example C98_hyp_Ichimoku : real_candles (map at_price [4; 2]%R) /\ (9 < length (map at_price (repeat 4%R 12)))%nat /\ rmap (fun s => nth_error s 9) (sides_of I_Ichimoku (mkIchiP 9 2 0) (flat [9; 9; 9; 9; 9; 9; 9; 9; 3; 20])) = Ok (Some Buy).
Proof. split; [apply at_price_real|]. split; [cbn; lia|vm_compute; reflexivity]. Qed.
